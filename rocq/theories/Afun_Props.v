(** C92: functions an Ainur input reads from files. *)
From Coq Require Import Ascii String.
From Verif Require Import Prelude Str_Model Str_Spec Str_Proofs Str_Props Input_Model Input_Spec Solv_Spec Solv_Proofs Ainur_Model Ainur_Props Afun_Model Afun_Spec Afun_Proofs.
Import List.

(** A function made from a file with a table gives, for each argument of the table, the number beside its first
    occurrence; for any other argument its behaviour is undefined. *)
Theorem C92_function : forall (D : Type) (num : str -> D) (same : D -> D -> bool) (files : str -> option str) file cx cy args content rows,
  arguments file cx cy args -> ~ In ","%char file -> files file = Some content -> table cx cy content rows ->
  exists data, (forall fuel, List.length content < fuel -> afun_new num files fuel args = Ok data) /\
    (forall x y, gives num same rows x y -> afun_call same data x = Ok (num y)) /\
    (forall x, (forall p, In p rows -> same (num (fst p)) x = false) -> afun_call same data x = UB).
Proof.
  intros D num same files file cx cy args content rows Ha Nf Hf Ht. exists (pairs num rows). split; [|split].
  - intros fuel F. rewrite (new_args num files file cx cy args content fuel Nf Ha Hf). apply (read_table num cx cy content rows Ht fuel [] F).
  - intros x y H. apply call_gives. exact H.
  - intros x H. apply call_none. exact H.
Qed.
Print Assumptions C92_function.

(** A value written as such a function with an argument reads as what the table gives. *)
Theorem C92_value : forall (D : Type) (num : str -> D) (same : D -> D -> bool) (to_string : D -> str) (files : str -> option str) funcs file cx cy args content rows fuel x y,
  arguments file cx cy args -> ~ In ","%char file -> ~ In ")"%char file -> files file = Some content -> table cx cy content rows ->
  List.length content < fuel -> In args funcs -> real_like x -> gives num same rows (num x) y ->
  valueFromFunction (afun_value num same to_string files fuel) funcs (args ++ lit "(" ++ x ++ lit ")") = Ok (to_string (num y)).
Proof.
  intros D num same ts files funcs file cx cy args content rows fuel x y Ha Nf Np Hf Ht F Hi Hx Hg.
  assert (Nx : x <> []) by (destruct Hx as [(c & Hc & _) _]; intros ->; destruct Hc).
  assert (A : exists a, args = "("%char :: a ++ [")"%char] /\ a <> [] /\ ~ In ")"%char a).
  { assert (S : forall s, ~ In ")"%char s -> ~ In ")"%char (""""%char :: file ++ """"%char :: s)).
    { intros s Hs [K|K]; [discriminate|]. apply in_app_or in K. destruct K as [K|[K|K]]; auto. discriminate. }
    destruct Ha as [| |cx x' Hx'|cx cy x' y' Hx' Hy'].
    - exists (""""%char :: file ++ """"%char :: []). split; [cbn; rewrite <- app_assoc; reflexivity|]. split; [discriminate|apply S; auto].
    - exists (""""%char :: file ++ """"%char :: lit ",space"). split; [cbn; rewrite <- app_assoc; reflexivity|]. split; [discriminate|apply S; vm_compute; intuition discriminate].
    - exists (""""%char :: file ++ """"%char :: lit ",space," ++ x'). destruct (written_digits x' _ Hx') as (_ & _ & N1).
      split; [cbn; repeat (rewrite <- app_assoc; cbn [app]); reflexivity|]. split; [discriminate|apply S].
      intros K. apply in_app_or in K. destruct K as [K|K]; auto. vm_compute in K. intuition discriminate.
    - exists (""""%char :: file ++ """"%char :: lit ",space," ++ x' ++ ","%char :: y').
      destruct (written_digits x' _ Hx') as (_ & _ & N1). destruct (written_digits y' _ Hy') as (_ & _ & N2).
      split; [cbn; repeat (rewrite <- app_assoc; cbn [app]); reflexivity|]. split; [discriminate|apply S].
      intros K. apply in_app_or in K. destruct K as [K|K]; [vm_compute in K; intuition discriminate|].
      apply in_app_or in K. destruct K as [K|[K|K]]; auto. discriminate. }
  destruct A as (a & Ea & Na & Ra). unfold valueFromFunction. change (lit "(" ++ x ++ lit ")") with ("("%char :: x ++ [")"%char]).
  rewrite Ea, (name_value a x Ra Na Nx), <- Ea. destruct x as [|c x]; [congruence|].
  rewrite (float_like _ Hx). cbn [negb].
  replace (existsb (str_eqb args) funcs) with true by (symmetry; apply existsb_exists; exists args; split; [auto|apply str_eqb_eq; auto]). cbn [negb].
  assert (Nc : forall d, In d (c :: x) -> d <> "("%char /\ d <> ")"%char).
  { intros d Hd. destruct Hx as [_ Hx]. specialize (Hx d Hd). split; intros ->; destruct Hx as [Hx|Hx]; vm_compute in Hx; intuition discriminate. }
  assert (De : deleteEnclosing (c :: x) "(" ")" = c :: x).
  { unfold deleteEnclosing. destruct (Ascii.eqb_spec c "(") as [E|_]; [exfalso; destruct (Nc c (or_introl eq_refl)); auto|].
    assert (Hn : In (nth (List.length (c :: x) - 1) (c :: x) zero) (c :: x)) by (apply nth_In; cbn; lia).
    cbv beta iota zeta. replace (Ascii.eqb (nth (List.length (c :: x) - 1) (c :: x) zero) ")") with false by (symmetry; apply Ascii.eqb_neq; apply (Nc _ Hn)).
    rewrite Bool.andb_false_r. cbn [skipn]. apply firstn_all. }
  rewrite De, (float_like _ Hx). unfold afun_value.
  destruct (C92_function D num same files file cx cy args content rows Ha Nf Hf Ht) as (data & E1 & E2 & _).
  rewrite (E1 fuel F). cbn [bind]. rewrite (E2 _ _ Hg). reflexivity.
Qed.
Print Assumptions C92_value.

(** A separator other than space and comma, a file that cannot be opened, and a
    fifth argument are refused. *)
Theorem C92_refused : forall (D : Type) (num : str -> D) (files : str -> option str) file mid toks fuel,
  runs (fun c => c = ","%char) mid ((lit """" ++ file ++ lit """") :: toks) ->
  ((exists sep more, toks = sep :: more /\ sep <> lit "space" /\ sep <> lit "comma") \/
   (files file = None /\ (toks = [] \/ toks = [lit "space"] \/ toks = [lit "comma"])) \/
   (exists sep x y nx ny more, toks = sep :: x :: y :: more /\ more <> [] /\ written x nx /\ written y ny)) ->
  afun_new num files fuel (lit "(" ++ mid ++ lit ")") = Throw.
Proof.
  intros D num files file mid toks fuel R H. unfold afun_new.
  change (lit "(" ++ mid ++ lit ")") with ("("%char :: mid ++ [")"%char]).
  assert (E1 : deleteEnclosing ("("%char :: mid ++ [")"%char]) "(" ")" = mid) by apply enclosed.
  rewrite E1. change (lit ",") with [","%char]. rewrite (split_runs mid ","%char _ R). cbn [bind].
  assert (Fn : deleteEnclosing (lit """" ++ file ++ lit """") """" """" = file) by apply enclosed.
  rewrite Fn. destruct H as [(sep & more & -> & N1 & N2)|[(Hf & Ht)|(sep & x & y & nx & ny & more & -> & Nm & Hx & Hy)]].
  - unfold setSeparatorForSplit. destruct (str_eqb sep (lit "space")) eqn:Q1; [apply str_eqb_eq in Q1; contradiction|].
    destruct (str_eqb sep (lit "comma")) eqn:Q2; [apply str_eqb_eq in Q2; contradiction|]. reflexivity.
  - destruct Ht as [->|[->| ->]]; cbn [bind]; rewrite Hf; reflexivity.
  - destruct (setSeparatorForSplit sep) eqn:Q; cbn [bind].
    + rewrite (written_atoi x _ Hx). cbn [bind]. rewrite (written_atoi y _ Hy). cbn [bind].
      destruct more; [contradiction|reflexivity].
    + reflexivity.
    + unfold setSeparatorForSplit in Q. destruct (str_eqb _ _); [discriminate|]. destruct (str_eqb _ _); discriminate.
    + unfold setSeparatorForSplit in Q. destruct (str_eqb _ _); [discriminate|]. destruct (str_eqb _ _); discriminate.
Qed.
Print Assumptions C92_refused.

Lemma new_comma (D : Type) (num : str -> D) (files : str -> option str) file content fuel : ~ In ","%char file -> files file = Some content ->
  afun_new num files fuel (lit "(""" ++ file ++ lit """,comma)") = read_loop num fuel 0 1 false content [].
Proof.
  intros Nf Hf. unfold afun_new. destruct (inside_ok file Nf) as [I1 I2].
  replace (lit "(""" ++ file ++ lit """,comma)") with ("("%char :: (inside file ++ ","%char :: lit "comma") ++ [")"%char])
    by (unfold inside; cbn; repeat (rewrite <- app_assoc; cbn [app]); reflexivity).
  rewrite enclosed. cbv zeta. change (lit ",") with [","%char]. rewrite (split_runs (inside file ++ ","%char :: lit "comma") ","%char [inside file; lit "comma"]).
  2: { apply runs_more; auto. apply runs_one; [discriminate|]. vm_compute. intuition discriminate. }
  cbn [bind]. unfold inside at 1. rewrite enclosed, Hf. reflexivity.
Qed.
Lemma first_line (D : Type) (num : str -> D) fuel cx cy line s data : fits line -> 
  read_loop num (S fuel) cx cy false (line ++ newline :: s) data =
  bind (read_line num cx cy line data) (fun data => read_loop num fuel cx cy false s data).
Proof.
  intros Hl. cbn [read_loop]. rewrite getline_good; [|destruct Hl as (H & _); unfold MAX_LINE; lia|apply Hl]. rewrite fits_c_str by auto. reflexivity.
Qed.
(** The separator is stored and not used: a file whose first line has a comma and no space is rejected although
    the comma was asked for. *)
Theorem C92_comma_refuted : forall (D : Type) (num : str -> D) (files : str -> option str) file line s fuel,
  ~ In ","%char file -> files file = Some (line ++ newline :: s) -> fits line -> In ","%char line -> ~ In " "%char line -> 0 < fuel ->
  afun_new num files fuel (lit "(""" ++ file ++ lit """,comma)") = Throw.
Proof.
  intros D num files file line s fuel Nf Hf Hl Hc Hs F. rewrite (new_comma D num files file _ fuel Nf Hf). destruct fuel as [|fuel]; [lia|].
  rewrite first_line by auto. unfold read_line. destruct line as [|c line]; [destruct Hc|]. rewrite emptyLine_cons.
  change (lit " ") with [" "%char]. rewrite (split_runs _ _ [c :: line]) by (apply runs_one; [discriminate|auto]). cbn [bind].
  unfold line_pair. change (Z.of_nat (List.length [c :: line]) <? 0)%Z with false. change (Z.of_nat (List.length [c :: line]) <? 1)%Z with false. cbn [orb].
  change (vget [c :: line] (Z.to_nat 0)) with (Ok (c :: line)). cbn [bind].
  destruct (isAfloat (c :: line)) eqn:E; [|reflexivity]. exfalso. apply isAfloat_spec in E. destruct E as [_ E]. specialize (E _ Hc).
  destruct E as [E|E]; vm_compute in E; intuition discriminate.
Qed.
Print Assumptions C92_comma_refuted.

(** A negative column is refused as soon as a line has something in it. *)
Theorem C92_negative : forall (D : Type) (num : str -> D) (files : str -> option str) file x nx line ws s fuel,
  ~ In ","%char file -> written x nx -> (- 2 ^ 31 <= nx < 0)%Z -> files file = Some (line ++ newline :: s) -> fits line ->
  line <> [] -> words line ws -> 0 < fuel ->
  afun_new num files fuel (lit "(""" ++ file ++ lit """,space," ++ x ++ lit ")") = Throw.
Proof.
  intros D num files file x nx line ws s fuel Nf Hx Hn Hf Hl Nl Hw F. unfold afun_new. destruct (inside_ok file Nf) as [I1 I2].
  destruct (written_digits x _ Hx) as (Nx & Cx & _).
  replace (lit "(""" ++ file ++ lit """,space," ++ x ++ lit ")") with ("("%char :: (inside file ++ ","%char :: lit "space" ++ ","%char :: x) ++ [")"%char])
    by (unfold inside; cbn; repeat (rewrite <- app_assoc; cbn [app]); reflexivity).
  rewrite enclosed. cbv zeta. change (lit ",") with [","%char]. rewrite (split_runs _ ","%char [inside file; lit "space"; x]).
  2: { apply runs_more; auto. apply runs_more; auto; [discriminate|vm_compute; intuition discriminate|]. apply runs_one; auto. }
  cbn [bind]. unfold inside at 1. rewrite enclosed. change (setSeparatorForSplit (lit "space")) with (Ok (lit " ")). cbn [bind].
  rewrite (written_atoi x _ Hx). cbn [bind]. rewrite Hf. destruct fuel as [|fuel]; [lia|]. rewrite first_line by auto.
  unfold read_line. destruct line as [|c line]; [congruence|]. rewrite emptyLine_cons. change (lit " ") with [" "%char].
  rewrite (split_runs _ _ ws Hw). cbn [bind]. unfold line_pair. 
  assert (L : List.length ws <= List.length (c :: line)).
  { clear -Hw. unfold words in Hw. induction Hw as [|c' s ts Hc R IH|t s ts N Ht Hs R IH]; cbn [List.length] in *; rewrite ?app_length; try lia.
    destruct t; [congruence|]. cbn [List.length]. lia. }
  destruct Hl as (Hl & _). unfold to_size. destruct (Z.ltb_spec nx 0); [|lia].
  destruct (Z.ltb_spec (Z.of_nat (List.length ws)) (nx + 2 ^ 64)); [reflexivity|exfalso; clear -L Hl H0 Hn; lia].
Qed.
Print Assumptions C92_negative.

(** A line of spaces is not taken as empty: it makes the file an error. *)
Theorem C92_blank_refuted : forall (D : Type) (num : str -> D) (files : str -> option str) file cx cy args content rows n rest fuel,
  arguments file cx cy args -> ~ In ","%char file -> 0 < cx \/ 0 < cy -> table cx cy content rows -> n < 2047 ->
  content = [] \/ last content zero = newline ->
  files file = Some (content ++ repeat " "%char (S n) ++ newline :: rest) -> List.length content + 1 < fuel ->
  afun_new num files fuel args = Throw.
Proof.
  intros D num files file cx cy args content rows n rest fuel Ha Nf Hc Ht Hn Hl Hf F.
  rewrite (new_args num files file cx cy args _ fuel Nf Ha Hf).
  assert (Hb : fits (repeat " "%char (S n))).
  { split; [rewrite repeat_length; lia|]. split; intros K; apply repeat_spec in K; discriminate. }
  assert (B : forall data, read_line num (Z.of_nat cx) (Z.of_nat cy) (repeat " "%char (S n)) data = Throw).
  { intros data. unfold read_line. cbn [repeat]. rewrite emptyLine_cons. change (" "%char :: repeat " "%char n) with (repeat " "%char (S n)). change (lit " ") with [" "%char].
    rewrite (split_runs _ _ []).
    - cbn [bind line_pair]. unfold line_pair. cbn [List.length]. destruct (Z.ltb_spec (Z.of_nat 0) (Z.of_nat cx)); [reflexivity|].
      destruct (Z.ltb_spec (Z.of_nat 0) (Z.of_nat cy)); [reflexivity|lia].
    - clear. induction (S n) as [|m IH]; cbn [repeat]; [constructor|apply runs_delim; auto]. }
  clear Ha Hf. generalize (@nil (D * D)). revert fuel F Hl. induction Ht as [|line x y Hfi Hg|s l Ht IH|line x y s l Hfi Hg Ht IH]; intros fuel F Hl data.
  - destruct fuel as [|fuel]; [lia|]. cbn [app]. rewrite first_line by auto. rewrite B. reflexivity.
  - exfalso. destruct Hl as [->|Hl]; [destruct Hg as (ws & Hw & Hx & _); assert (ws = []) as -> by (apply (C11_runs_unique _ _ _ _ _ Hw); constructor); destruct cx; discriminate|].
    destruct line as [|c line]; [discriminate|]. destruct Hfi as (_ & N & _). apply N. rewrite <- Hl.
    assert (L : forall (l : str) d, l <> [] -> In (last l d) l) by (induction l as [|a [|b l] IHl]; intros d K; [congruence|left; reflexivity|right; apply IHl; discriminate]).
    apply L. discriminate.
  - destruct fuel as [|fuel]; [lia|]. cbn [app]. change (newline :: s ++ repeat " "%char (S n) ++ newline :: rest) with ([] ++ newline :: (s ++ repeat " "%char (S n) ++ newline :: rest)).
    rewrite first_line by (split; [cbn; lia|split; intros []]). cbn [read_line emptyLine bind]. apply IH; [cbn [List.length] in F; lia|].
    destruct Hl as [K|K]; [discriminate|]. destruct s; auto.
  - destruct fuel as [|fuel]; [lia|]. rewrite <- app_assoc. cbn [app]. rewrite first_line by auto. rewrite (read_line_ok num cx cy line x y) by auto. cbn [bind].
    apply IH; [rewrite app_length in F; cbn [List.length] in F; lia|]. destruct Hl as [K|K]; [destruct line; discriminate|].
    destruct s as [|c s]; [auto|right]. rewrite <- K.
    assert (L : forall (a b : str) d, b <> [] -> last (a ++ b) d = last b d).
    { induction a as [|e a IHa]; intros b d Hb'; [reflexivity|]. cbn [app]. rewrite <- (IHa b d Hb'). destruct (a ++ b) eqn:Eab; [apply app_eq_nil in Eab; destruct Eab; congruence|reflexivity]. }
    rewrite L by discriminate. reflexivity.
Qed.
Print Assumptions C92_blank_refuted.

(** The check of the number of columns lets through a line that has one column too few. *)
Theorem C92_columns_refuted : forall (D : Type) (num : str -> D) (files : str -> option str) file cx cy args line ws s fuel,
  arguments file cx cy args -> ~ In ","%char file -> files file = Some (line ++ newline :: s) -> fits line ->
  words line ws -> ws <> [] -> (forall w, In w ws -> real_like w) -> cx < List.length ws -> cy = List.length ws -> 0 < fuel ->
  afun_new num files fuel args = UB.
Proof.
  intros D num files file cx cy args line ws s fuel Ha Nf Hf Hl Hw Nw Hr Hx Hy F.
  rewrite (new_args num files file cx cy args _ fuel Nf Ha Hf). destruct fuel as [|fuel]; [lia|]. rewrite first_line by auto.
  unfold read_line. destruct line as [|c line].
  { exfalso. apply Nw. apply (C11_runs_unique _ _ _ _ _ Hw). constructor. }
  rewrite emptyLine_cons. change (lit " ") with [" "%char]. rewrite (split_runs _ _ _ Hw). cbn [bind].
  unfold line_pair. destruct (Z.ltb_spec (Z.of_nat (List.length ws)) (Z.of_nat cx)); [lia|].
  destruct (Z.ltb_spec (Z.of_nat (List.length ws)) (Z.of_nat cy)); [lia|]. cbn [orb]. rewrite !Nat2Z.id. unfold vget.
  destruct (nth_error ws cx) as [x|] eqn:Ex; [|apply nth_error_None in Ex; lia]. cbn [bind]. rewrite (float_like x) by (apply Hr; apply (nth_error_In _ _ Ex)). cbn [bind].
  replace (nth_error ws cy) with (@None str) by (symmetry; apply nth_error_None; lia). reflexivity.
Qed.
Print Assumptions C92_columns_refuted.

(** A line of 2048 characters or more that begins like a line of the table is never finished: no number of steps ends
    the reading. *)
Theorem C92_long_refuted : forall (D : Type) (num : str -> D) (files : str -> option str) file cx cy args line x y c s,
  arguments file cx cy args -> ~ In ","%char file -> List.length line = 2047 -> fits line -> line_gives cx cy line x y -> c <> newline ->
  files file = Some (line ++ c :: s) -> forall fuel, afun_new num files fuel args = OutOfFuel.
Proof.
  intros D num files file cx cy args line x y c s Ha Nf Ll Hl Hg Nc Hf fuel.
  rewrite (new_args num files file cx cy args _ fuel Nf Ha Hf).
  assert (Z : forall n r (data : list (D * D)), read_loop num n (Z.of_nat cx) (Z.of_nat cy) true r data = OutOfFuel).
  { induction n as [|n IH]; intros r data; [reflexivity|]. cbn [read_loop c_str read_line emptyLine bind]. apply IH. }
  destruct fuel as [|fuel]; [reflexivity|]. cbn [read_loop]. rewrite getline_fail; [|unfold MAX_LINE; lia|apply Hl|auto].
  rewrite fits_c_str by auto. rewrite (read_line_ok num cx cy line x y) by auto. cbn [bind]. apply Z.
Qed.
Print Assumptions C92_long_refuted.

Definition ex_table : str := lit "1 2.5 3" ++ [newline; newline] ++ lit " 2  7 1" ++ [newline] ++ lit "1 0 9".
Lemma real_b s : isAfloat s = true -> real_like s.
Proof. apply isAfloat_spec. Qed.
Lemma fits_b s : forallb (fun c => negb (Ascii.eqb c newline) && negb (Ascii.eqb c (ascii_of_nat 0))) s = true -> List.length s < 2048 -> fits s.
Proof.
  intros H L. rewrite forallb_forall in H. split; [auto|]. split; intros K; specialize (H _ K); vm_compute in H; discriminate.
Qed.
Lemma words_b s ws : str_split (S (List.length s)) [] s (lit " ") = Ok ws -> words s ws.
Proof.
  intros E. destruct (C11_split (S (List.length s)) [] s (lit " ") (Nat.lt_succ_diag_r _)) as (ts & E2 & R). rewrite E in E2. apply Ok_inj in E2. cbn [app] in E2. subst ts.
  apply (runs_iff (fun c => In c (lit " "))); auto. intros c. cbn. split; [intros [->|[]]; auto|intros ->; auto].
Qed.
Lemma words_pad n : words (lit "1 2" ++ repeat " "%char (S n)) [lit "1"; lit "2"].
Proof.
  unfold words. change (lit "1 2" ++ repeat " "%char (S n)) with (lit "1" ++ " "%char :: lit "2" ++ " "%char :: repeat " "%char n).
  apply runs_more; [discriminate|vm_compute; intuition discriminate|]. apply runs_more; [discriminate|vm_compute; intuition discriminate|].
  induction n as [|n IH]; cbn [repeat]; [constructor|apply runs_delim; auto].
Qed.
Example C92_nonvacuous :
  table 0 2 ex_table [(lit "1", lit "3"); (lit "2", lit "1"); (lit "1", lit "9")] /\
  arguments (lit "f.txt") 0 2 (lit "(""f.txt"",space,0,2)") /\
  gives (fun s : str => s) str_eqb [(lit "1", lit "3"); (lit "2", lit "1"); (lit "1", lit "9")] (lit "1") (lit "3") /\
  valueFromFunction (afun_value (fun s : str => s) str_eqb (fun s => s) (fun f => if str_eqb f (lit "f.txt") then Some ex_table else None) 40)
    [lit "(""f.txt"",space,0,2)"] (lit "(""f.txt"",space,0,2)(2)") = Ok (lit "1") /\
  fits (lit "1 2" ++ repeat " "%char 2044) /\ line_gives 0 1 (lit "1 2" ++ repeat " "%char 2044) (lit "1") (lit "2") /\
  words (lit "1 2") [lit "1"; lit "2"].
Proof.
  assert (W : forall s ws, str_split (S (List.length s)) [] s (lit " ") = Ok ws -> words s ws) by exact words_b.
  split.
  { unfold ex_table. apply table_line; [apply fits_b; [reflexivity|cbn; lia]| |].
    { exists [lit "1"; lit "2.5"; lit "3"]. split; [apply W; reflexivity|]. repeat split; try reflexivity; apply real_b; reflexivity. }
    apply table_empty. apply (table_line 0 2 (lit " 2  7 1")); [apply fits_b; [reflexivity|cbn; lia]| |].
    { exists [lit "2"; lit "7"; lit "1"]. split; [apply W; reflexivity|]. repeat split; try reflexivity; apply real_b; reflexivity. }
    apply table_last; [apply fits_b; [reflexivity|cbn; lia]|].
    exists [lit "1"; lit "0"; lit "9"]. split; [apply W; reflexivity|]. repeat split; try reflexivity; apply real_b; reflexivity. }
  split.
  { apply (args_4 (lit "f.txt") 0 2 (lit "0") (lit "2")).
    - exists (lit "0"). split; [discriminate|]. split; [intros c [<-|[]]; vm_compute; auto|left; split; reflexivity].
    - exists (lit "2"). split; [discriminate|]. split; [intros c [<-|[]]; vm_compute; auto|left; split; reflexivity]. }
  split.
  { exists [], (lit "1"), [(lit "2", lit "1"); (lit "1", lit "9")]. split; [reflexivity|]. split; [reflexivity|intros p []]. }
  split; [vm_compute; reflexivity|]. split; [apply fits_b; [vm_compute; reflexivity|rewrite app_length, repeat_length; cbn [lit List.length list_ascii_of_string]; lia]|].
  split.
  - exists [lit "1"; lit "2"]. split.
    + apply (words_pad 2043).
    + repeat split; try reflexivity; apply real_b; reflexivity.
  - apply W. reflexivity.
Qed.
