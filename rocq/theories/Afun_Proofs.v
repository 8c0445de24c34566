(** Proofs about functions given by tables. *)
From Coq Require Import Ascii String.
From Verif Require Import Prelude Str_Model Str_Spec Str_Proofs Str_Props Input_Model Input_Spec Solv_Spec Ainur_Model Ainur_Props Afun_Model Afun_Spec.
Import List.

(** ** Lines *)
Lemma getline_good line s : forall room, List.length line <= room -> ~ In newline line -> getline room (line ++ newline :: s) = (line, s, SGood).
Proof.
  induction line as [|c line IH]; intros room H N; cbn [app].
  - destruct room; cbn [getline]; change (Ascii.eqb newline nlc) with true; reflexivity.
  - destruct room as [|room]; [cbn in H; lia|]. cbn [getline]. destruct (Ascii.eqb_spec c nlc) as [E|_]; [exfalso; apply N; left; exact E|].
    rewrite IH; [reflexivity|cbn in H; lia|intros K; apply N; right; auto].
Qed.
Lemma getline_eof line : forall room, List.length line <= room -> ~ In newline line -> getline room line = (line, [], SEof).
Proof.
  induction line as [|c line IH]; intros room H N; [destruct room; reflexivity|].
  destruct room as [|room]; [cbn in H; lia|]. cbn [getline]. destruct (Ascii.eqb_spec c nlc) as [E|_]; [exfalso; apply N; left; exact E|].
  rewrite IH; [reflexivity|cbn in H; lia|intros K; apply N; right; auto].
Qed.
Lemma getline_fail line c s : forall room, List.length line = room -> ~ In newline line -> c <> newline -> getline room (line ++ c :: s) = (line, c :: s, SFail).
Proof.
  induction line as [|d line IH]; intros room H N Nc; cbn [app].
  - cbn in H. subst room. cbn [getline]. destruct (Ascii.eqb_spec c nlc) as [E|_]; [exfalso; apply Nc; exact E|]. reflexivity.
  - destruct room as [|room]; [cbn in H; lia|]. cbn [getline]. destruct (Ascii.eqb_spec d nlc) as [E|_]; [exfalso; apply N; left; exact E|].
    rewrite IH; [reflexivity|cbn in H; lia|intros K; apply N; right; auto|auto].
Qed.
Lemma emptyLine_cons c s : emptyLine (c :: s) = false.
Proof. destruct c as [[] [] [] [] [] [] [] []]; reflexivity. Qed.

Lemma runs_iff {A} (P Q : A -> Prop) : (forall c, P c <-> Q c) -> forall s ts, runs P s ts -> runs Q s ts.
Proof.
  intros H s ts R. induction R as [|c s ts Hc R IH|t s ts N Ht Hs R IH].
  - constructor.
  - apply runs_delim; [apply H|]; auto.
  - apply runs_token; auto.
    + intros c Hc K. apply (Ht c Hc), H. auto.
    + destruct Hs as [->|(c & s' & -> & Hc)]; [auto|right; exists c, s'; split; [auto|apply H; auto]].
Qed.
Lemma split_runs s d ts : runs (fun c => c = d) s ts -> str_split (S (List.length s)) [] s [d] = Ok ts.
Proof.
  intros R. destruct (C11_split (S (List.length s)) [] s [d] (Nat.lt_succ_diag_r _)) as (ts' & E & R').
  rewrite E. cbn [app]. f_equal. apply (C11_runs_unique _ (fun c => In c [d]) s); auto.
  apply (runs_iff (fun c => c = d)); auto. intros c. cbn [In]. split; [intros ->; auto|intros [->|[]]; auto].
Qed.
Lemma float_like x : real_like x -> isAfloat x = true.
Proof. intros H. apply isAfloat_spec. exact H. Qed.

Section Tables.
  Context {D : Type}.
  Variable num : str -> D.
  Notation read_line := (read_line num).
  Notation read_loop := (read_loop num).
  Notation line_pair := (line_pair num).

  Lemma read_line_ok cx cy line x y data : line_gives cx cy line x y ->
    read_line (Z.of_nat cx) (Z.of_nat cy) line data = Ok (data ++ [(num x, num y)]).
  Proof.
    intros (ws & Hw & Hx & Hy & Fx & Fy). unfold Afun_Model.read_line. destruct line as [|c line].
    { assert (ws = []) as -> by (apply (C11_runs_unique _ _ _ _ _ Hw); constructor). destruct cx; discriminate. }
    rewrite emptyLine_cons. unfold words in Hw. change (lit " ") with [" "%char]. rewrite (split_runs _ _ _ Hw). cbn [bind].
    unfold Afun_Model.line_pair.
    assert (Lx : cx < List.length ws) by (apply nth_error_Some; congruence). assert (Ly : cy < List.length ws) by (apply nth_error_Some; congruence).
    destruct (Z.ltb_spec (Z.of_nat (List.length ws)) (Z.of_nat cx)); [lia|]. destruct (Z.ltb_spec (Z.of_nat (List.length ws)) (Z.of_nat cy)); [lia|].
    cbn [orb]. rewrite !Nat2Z.id. unfold vget. rewrite Hx. cbn [bind]. rewrite (float_like x Fx). cbn [bind]. rewrite Hy. cbn [bind].
    rewrite (float_like y Fy). reflexivity.
  Qed.
  Lemma fits_c_str line : fits line -> c_str line = line.
  Proof. intros (_ & _ & N). apply c_str_chars. intros c Hc ->. apply N. exact Hc. Qed.

  Definition pairs (l : list (str * str)) : list (D * D) := map (fun p => (num (fst p), num (snd p))) l.
  Lemma read_table cx cy s l : table cx cy s l -> forall fuel data, List.length s < fuel ->
    read_loop fuel (Z.of_nat cx) (Z.of_nat cy) false s data = Ok (data ++ pairs l).
  Proof.
    assert (M : forall line, fits line -> List.length line <= MAX_LINE - 1) by (intros line (H & _); unfold MAX_LINE; lia).
    induction 1 as [|line x y Hf Hg|s l Ht IH|line x y s l Hf Hg Ht IH]; intros fuel data F; (destruct fuel as [|fuel]; [lia|]); cbn [Afun_Model.read_loop].
    - cbn [getline c_str Afun_Model.read_line emptyLine bind pairs map]. rewrite app_nil_r. reflexivity.
    - rewrite getline_eof by (auto; apply Hf). rewrite (fits_c_str line Hf), (read_line_ok _ _ _ _ _ _ Hg). reflexivity.
    - pose proof (getline_good [] s (MAX_LINE - 1) (Nat.le_0_l _) (fun K => K)) as E. cbn [app] in E. rewrite E.
      cbn [c_str Afun_Model.read_line emptyLine bind]. apply IH. cbn [List.length] in F. lia.
    - rewrite getline_good by (auto; apply Hf). rewrite (fits_c_str line Hf), (read_line_ok _ _ _ _ _ _ Hg). cbn [bind].
      rewrite IH; [|rewrite app_length in F; cbn [List.length] in F; lia]. unfold pairs. cbn [map fst snd]. rewrite <- app_assoc. reflexivity.
  Qed.
  Lemma call_gives (same : D -> D -> bool) l x y : gives num same l x y -> afun_call same (pairs l) x = Ok (num y).
  Proof.
    intros (pre & x' & post & -> & Hs & Hp). unfold afun_call, pairs. rewrite map_app. cbn [map fst snd].
    induction pre as [|p pre IH]; cbn [map app find fst snd].
    - rewrite Hs. reflexivity.
    - rewrite (Hp p) by (left; auto). apply IH. intros q Hq. apply Hp. right. auto.
  Qed.
  Lemma call_none (same : D -> D -> bool) l x : (forall p, In p l -> same (num (fst p)) x = false) -> afun_call same (pairs l) x = UB.
  Proof.
    intros H. unfold afun_call, pairs. induction l as [|p l IH]; [reflexivity|]. cbn [map find fst snd]. rewrite (H p) by (left; auto).
    apply IH. intros q Hq. apply H. right. auto.
  Qed.

End Tables.

(** ** Arguments *)
  Lemma enclosed b e s : deleteEnclosing (b :: s ++ [e]) b e = s.
  Proof.
    unfold deleteEnclosing. rewrite Ascii.eqb_refl. cbn [List.length]. rewrite app_length. cbn [List.length].
    replace (S (List.length s + 1) - 1) with (S (List.length s)) by lia.
    change (Nat.ltb 0 (S (List.length s))) with true. cbn [nth]. rewrite app_nth2, Nat.sub_diag by lia. cbn [nth]. rewrite Ascii.eqb_refl. cbn [andb skipn].
    replace (S (List.length s) - 1) with (List.length s) by lia. rewrite firstn_app, firstn_all, Nat.sub_diag. apply app_nil_r.
  Qed.
  Lemma runs_one d (t : str) : t <> [] -> ~ In d t -> runs (fun c => c = d) t [t].
  Proof.
    intros N H. rewrite <- (app_nil_r t) at 1. apply runs_token; auto; [|constructor]. intros c Hc ->. contradiction.
  Qed.
  Lemma runs_more d (t s : str) ts : t <> [] -> ~ In d t -> runs (fun c => c = d) s ts -> runs (fun c => c = d) (t ++ d :: s) (t :: ts).
  Proof.
    intros N H R. apply runs_token; auto.
    - intros c Hc ->. contradiction.
    - right. exists d, s. auto.
    - apply runs_delim; auto.
  Qed.
  Lemma written_digits x n : written x n -> x <> [] /\ ~ In ","%char x /\ ~ In ")"%char x.
  Proof.
    assert (G : forall d, (forall c, In c d -> is_digit c) -> ~ In ","%char d /\ ~ In ")"%char d).
    { intros d H. split; intros K; specialize (H _ K); vm_compute in H; intuition discriminate. }
    intros (d & N & Hd & [[-> _]|[-> _]]); destruct (G d Hd).
    - auto.
    - split; [discriminate|]. split; intros [K|K]; auto; discriminate.
  Qed.
  Lemma written_atoi x n : written x n -> atoi x = Ok n.
  Proof. intros (d & N & Hd & [[-> ->]|[-> ->]]); [apply atoi_nat|apply atoi_neg]; auto. Qed.
  Lemma to_size_nat n : to_size (Z.of_nat n) = Z.of_nat n.
  Proof. unfold to_size. destruct (Z.ltb_spec (Z.of_nat n) 0); [lia|reflexivity]. Qed.

  Definition inside (file : str) : str := """"%char :: file ++ [""""%char].
  Lemma inside_ok file : ~ In ","%char file -> inside file <> [] /\ ~ In ","%char (inside file).
  Proof.
    intros H. split; [discriminate|]. unfold inside. intros [K|K]; [discriminate|]. apply in_app_or in K. destruct K as [K|[K|[]]]; [auto|discriminate].
  Qed.
Section Arguments.
  Context {D : Type}.
  Variable num : str -> D.
  Variable files : str -> option str.
  Lemma new_args file cx cy args content fuel : ~ In ","%char file -> arguments file cx cy args -> files file = Some content ->
    afun_new num files fuel args = Afun_Model.read_loop num fuel (Z.of_nat cx) (Z.of_nat cy) false content [].
  Proof.
    intros Nf Ha Hf. destruct (inside_ok file Nf) as [I1 I2].
    assert (Fn : deleteEnclosing (inside file) """" """" = file) by apply enclosed.
    assert (G : forall mid toks, args = "("%char :: mid ++ [")"%char] -> runs (fun c => c = ","%char) mid toks ->
      deleteEnclosing args "(" ")" = mid /\ str_split (S (List.length mid)) [] mid (lit ",") = Ok toks).
    { intros mid toks -> R. split; [apply enclosed|]. apply (split_runs mid ","%char). exact R. }
    assert (Sp : ~ In ","%char (lit "space")) by (vm_compute; intuition discriminate).
    unfold afun_new. destruct Ha as [| |cx x Hx|cx cy x y Hx Hy].
    - destruct (G (inside file) [inside file]) as [E1 E2]; [unfold inside; cbn; rewrite <- app_assoc; reflexivity|apply runs_one; auto|].
      rewrite E1, E2. cbn [bind]. rewrite Fn, Hf. reflexivity.
    - destruct (G (inside file ++ ","%char :: lit "space") [inside file; lit "space"]) as [E1 E2].
      { unfold inside. cbn. repeat (rewrite <- app_assoc; cbn [app]). reflexivity. }
      { apply runs_more; auto. apply runs_one; auto. discriminate. }
      rewrite E1, E2. cbn [bind]. rewrite Fn, Hf. reflexivity.
    - destruct (written_digits x _ Hx) as (Nx & Cx & _).
      destruct (G (inside file ++ ","%char :: lit "space" ++ ","%char :: x) [inside file; lit "space"; x]) as [E1 E2].
      { unfold inside. cbn. repeat (rewrite <- app_assoc; cbn [app]). reflexivity. }
      { apply runs_more; auto. apply runs_more; auto; [discriminate|]. apply runs_one; auto. }
      rewrite E1, E2. cbn [bind]. rewrite Fn. change (setSeparatorForSplit (lit "space")) with (Ok (lit " ")). cbn [bind].
      rewrite (written_atoi x _ Hx). cbn [bind]. rewrite Hf, to_size_nat. reflexivity.
    - destruct (written_digits x _ Hx) as (Nx & Cx & _). destruct (written_digits y _ Hy) as (Ny & Cy & _).
      destruct (G (inside file ++ ","%char :: lit "space" ++ ","%char :: x ++ ","%char :: y) [inside file; lit "space"; x; y]) as [E1 E2].
      { unfold inside. cbn. repeat (rewrite <- app_assoc; cbn [app]). reflexivity. }
      { apply runs_more; auto. apply runs_more; auto; [discriminate|]. apply runs_more; auto. apply runs_one; auto. }
      rewrite E1, E2. cbn [bind]. rewrite Fn. change (setSeparatorForSplit (lit "space")) with (Ok (lit " ")). cbn [bind].
      rewrite (written_atoi x _ Hx), (written_atoi y _ Hy). cbn [bind]. rewrite Hf, !to_size_nat. reflexivity.
  Qed.
End Arguments.

(** ** The use of a function *)
Lemma close_open_at p s : forall n i pre, ~ In ")"%char p -> List.length pre = i -> List.length p < n ->
  close_open (pre ++ p ++ ")"%char :: "("%char :: s) n i = i + List.length p.
Proof.
  induction p as [|c p IH]; intros n i pre N L H; (destruct n as [|n]; [cbn in H; lia|]); cbn [close_open].
  - cbn [app]. rewrite app_nth2, L, Nat.sub_diag by lia. cbn [nth]. rewrite app_nth2 by lia. rewrite L. replace (i + 1 - i) with 1 by lia. cbn [nth].
    cbn. rewrite Nat.add_0_r. reflexivity.
  - rewrite app_nth2, L, Nat.sub_diag by lia. cbn [app nth].
    destruct (Ascii.eqb_spec c ")") as [->|Nc]; [exfalso; apply N; left; auto|]. cbn [andb].
    specialize (IH n (S i) (pre ++ [c])). rewrite <- app_assoc in IH. cbn [app] in IH. rewrite IH; [cbn [List.length]; lia| | |cbn in H; lia].
    + intros K. apply N. right. auto.
    + rewrite app_length. cbn. lia.
Qed.
Lemma name_value a x : ~ In ")"%char a -> a <> [] -> x <> [] ->
  getFunctionNameValue (("("%char :: a ++ [")"%char]) ++ "("%char :: x ++ [")"%char]) = ("("%char :: a ++ [")"%char], x).
Proof.
  intros N Na Nx. set (line := ("("%char :: a ++ [")"%char]) ++ "("%char :: x ++ [")"%char]).
  assert (Ll : List.length line = List.length a + List.length x + 4).
  { unfold line. rewrite app_length. cbn [List.length]. rewrite !app_length. cbn [List.length]. lia. }
  assert (0 < List.length a) by (destruct a; [congruence|cbn; lia]). assert (0 < List.length x) by (destruct x; [congruence|cbn; lia]).
  unfold getFunctionNameValue. rewrite Ll. destruct (Nat.ltb_spec (List.length a + List.length x + 4) 4); [lia|].
  change (nth 0 line zero) with "("%char. cbn [Ascii.eqb Bool.eqb negb orb].
  assert (Last : nth (List.length a + List.length x + 4 - 1) line zero = ")"%char).
  { replace line with (("("%char :: a ++ ")"%char :: "("%char :: x) ++ [")"%char]) by (unfold line; cbn [app]; rewrite <- !app_assoc; reflexivity).
    rewrite app_nth2; cbn [List.length]; rewrite app_length; cbn [List.length]; [|lia].
    replace (List.length a + List.length x + 4 - 1 - S (List.length a + S (S (List.length x)))) with 0 by lia. reflexivity. }
  rewrite Last. cbn [Ascii.eqb Bool.eqb negb].
  assert (Eline : line = ["("%char] ++ a ++ ")"%char :: "("%char :: (x ++ [")"%char])) by (unfold line; cbn [app]; rewrite <- !app_assoc; reflexivity).
  assert (Ec : close_open line (List.length a + List.length x + 4 - 1) 1 = 1 + List.length a) by (rewrite Eline; apply close_open_at; auto; lia).
  rewrite Ec. cbv zeta.
  destruct (Nat.eqb_spec (1 + List.length a) (List.length a + List.length x + 4)); [lia|].
  f_equal.
  - replace (1 + List.length a + 1) with (List.length ("("%char :: a ++ [")"%char])) by (cbn [List.length]; rewrite app_length; cbn; lia).
    unfold line. rewrite firstn_app, firstn_all, Nat.sub_diag. apply app_nil_r.
  - replace (List.length a + List.length x + 4 - (1 + List.length a) - 3) with (List.length x) by lia.
    rewrite Eline.
    replace (["("%char] ++ a ++ ")"%char :: "("%char :: x ++ [")"%char]) with (("("%char :: a ++ [")"%char; "("%char]) ++ x ++ [")"%char]) by (cbn [app]; rewrite <- !app_assoc; reflexivity).
    replace (1 + List.length a + 2) with (List.length ("("%char :: a ++ [")"%char; "("%char])) by (cbn [List.length]; rewrite app_length; cbn; lia).
    rewrite skipn_app, skipn_all, Nat.sub_diag. cbn [app skipn]. rewrite firstn_app, firstn_all, Nat.sub_diag. apply app_nil_r.
Qed.
