(** C102: the couplings of a geometry that is read from an input file. *)
From Coq Require Import Ascii String.
From Verif Require Import Prelude Ring Str_Model Str_Spec Str_Proofs Text_Model Text_Proofs Ng_Proofs Dense_Model Dense_Spec Dense_Proofs
  Geo_Model Geo_Spec Geo_Proofs Geo_Proofs4
  Input_Model Input_Spec Input_Proofs Input_Parse Input_Read Input_Props Inc_Model Inc_Spec Inc_Proofs Inc_Props Gin_Model Gin_Spec Gin_Proofs Gin_Proofs2 Gin_Proofs3.
Import List.

Lemma parsed_start cl ct cv f : checks_accept cl ct -> file_ok cv f -> f <> [] -> separate f ->
  exists p, writeable_file cl ct cv (Some (render f)) = Ok p /\ RP f (fun _ => 0) (fun _ => 0) (readable p).
Proof.
  intros A F N S. destruct (file_parsed cl ct cv f A F N) as (p & E & T & V & C). destruct F as (I & _). exists p. split; [exact E|].
  exists (start f). split; [apply (start_inv f p I S T V C)|]. split; intros l; rewrite Nat.min_0_l; reflexivity.
Qed.

(** A well formed input file that describes a geometry is read, and the value of each pair of sites in each term is the
    one the file gives its bond, in both orders of the sites; it is 0 for sites without a bond. Terms are chains, ladders
    and stars of one degree of freedom. *)
Theorem C102_couplings_partial : forall (R : cring) (std_atof : str -> R) other garbage chk_label chk_text chk_vec f L ds,
  checks_accept chk_label chk_text -> file_ok chk_vec f -> f <> [] -> separate f -> geometry_said f L ds ->
  exists p g r', writeable_file chk_label chk_text chk_vec (Some (render f)) = Ok p /\
    read_geometry R std_atof other garbage (readable p) = Ok (g, r') /\
    ge_sites g = Z.of_nat L /\ List.length (ge_terms g) = List.length ds /\
    forall k d, nth_error ds k = Some d -> couplings std_atof L d (fun i j => geometry_value R g i 0 j 0 k).
Proof.
  intros R at_f other gb cl ct cv f L ds A F N S Hs. destruct (parsed_start cl ct cv f A F N S) as (p & E & H).
  destruct (geometry_ok R at_f other gb f L ds (readable p) H Hs) as (g & r' & E2 & G1 & G2 & G3). exists p, g, r'. auto.
Qed.
Print Assumptions C102_couplings_partial.

(** A file in which some term does not have as many connectors as its bonds need is refused. *)
Theorem C102_refused : forall (R : cring) (std_atof : str -> R) other garbage chk_label chk_text chk_vec f L n ds d,
  checks_accept chk_label chk_text -> file_ok chk_vec f -> f <> [] -> separate f -> geometry_starts f L n ds -> List.length ds < n ->
  fits L (d_shape d) -> term_misfit f L (used ds) (used_vecs ds) d ->
  exists p, writeable_file chk_label chk_text chk_vec (Some (render f)) = Ok p /\ read_geometry R std_atof other garbage (readable p) = Throw.
Proof.
  intros R at_f other gb cl ct cv f L n ds d A F N S Hs Hn Ft Md. destruct (parsed_start cl ct cv f A F N S) as (p & E & H). exists p. split; [exact E|].
  eapply geometry_refused; eauto.
Qed.
Print Assumptions C102_refused.

(** So is a file in which some term has no degrees of freedom or is of a kind that there is not. *)
Theorem C102_unknown : forall (R : cring) (std_atof : str -> R) other garbage chk_label chk_text chk_vec f L n ds,
  checks_accept chk_label chk_text -> file_ok chk_vec f -> f <> [] -> separate f -> geometry_starts f L n ds -> List.length ds < n ->
  term_none f (used ds) ->
  exists p, writeable_file chk_label chk_text chk_vec (Some (render f)) = Ok p /\ read_geometry R std_atof other garbage (readable p) = Throw.
Proof.
  intros R at_f other gb cl ct cv f L n ds A F N S Hs Hn Md. destruct (parsed_start cl ct cv f A F N S) as (p & E & H). exists p. split; [exact E|].
  eapply geometry_none; eauto.
Qed.
Print Assumptions C102_unknown.

(** ... and one with a negative number of sites or terms. *)
Theorem C102_negative : forall (R : cring) (std_atof : str -> R) other garbage chk_label chk_text chk_vec f,
  checks_accept chk_label chk_text -> file_ok chk_vec f -> f <> [] -> separate f -> counts_negative f ->
  exists p, writeable_file chk_label chk_text chk_vec (Some (render f)) = Ok p /\ read_geometry R std_atof other garbage (readable p) = Throw.
Proof.
  intros R at_f other gb cl ct cv f A F N S Hn. destruct (parsed_start cl ct cv f A F N S) as (p & E & H). exists p. split; [exact E|].
  eapply geometry_negative; eauto.
Qed.

(** Each of the kinds of lattices whose reading is not modelled gets to it, with what was read before. *)
Theorem C102_kinds : forall (R : cring) (std_atof : str -> R) other garbage L r x r1 s r2 o r3,
  try_size r (lit "DegreesOfFreedom=") = Ok (x, r1) -> (forall n, x = Some n -> (0 < n)%Z) ->
  readline r1 (lit "GeometryKind=") true false = Ok (s, r2) -> readline r2 (lit "GeometryOptions=") true false = Ok (o, r3) ->
  (In s (map lit ["ladderx"; "ladderbath"; "ktwoniffour"; "LongRange"; "General"; "Honeycomb"]%string) \/ exists rest, s = lit "Super" ++ rest) ->
  read_term R std_atof other garbage L r = other s (match x with Some n => Z.to_nat n | None => 1 end) o L r3.
Proof.
  intros R at_f other gb L r x r1 s r2 o r3 E1 Hx E2 E3 Hs. unfold read_term. rewrite E1. cbn [bind]. cbv zeta.
  assert (O : (match x with Some n => Z.to_nat n | None => 1 end =? 0) = false).
  { destruct x as [n|]; [|reflexivity]. specialize (Hx n eq_refl). apply Nat.eqb_neq. lia. }
  rewrite O, E2. cbn [bind]. rewrite E3. cbn [bind]. destruct Hs as [Hs|(rest & ->)]; [|reflexivity].
  cbn [map] in Hs. repeat (destruct Hs as [<-|Hs]; [reflexivity|]). destruct Hs.
Qed.
Print Assumptions C102_kinds.

(** ** What goes wrong *)
Definition no_other (_ : str) (_ : nat) (_ : str) (_ : Z) (_ : rst) : res (gterm Zring * rst) := Throw.
Definition coupling (l : list str) (i j term : nat) : res Zring :=
  do r <- after_file (flat_map (fun s => s ++ nl) l) ;;
  do (g, _) <- read_geometry Zring std_atoi no_other false r ;; geometry_value Zring g i 0 j 0 term.

(** A file with connectors for one of two terms is not refused: the second term gets those of the first. So does the
    second direction of a ladder. *)
Theorem C102_missing_refuted :
  (let c := coupling [lit "TotalNumberOfSites=3"; lit "NumberOfTerms=2"; lit "GeometryKind=chain"; lit "GeometryOptions=none"; lit "Connectors 2 5 6"] in
   c 0 1 0 = Ok 5%Z /\ c 0 1 1 = Ok 5%Z /\ c 1 2 1 = Ok 6%Z) /\
  coupling [lit "TotalNumberOfSites=6"; lit "NumberOfTerms=1"; lit "GeometryKind=ladder"; lit "GeometryOptions=ConstantValues"; lit "LadderLeg=2";
    lit "Connectors 1 7"] 0 1 0 = Ok 7%Z.
Proof. vm_compute. auto. Qed.
Print Assumptions C102_missing_refuted.
(** A value of IsPeriodicX that is not a number is not refused: the chain is open. Neither is a distance that no two sites
    of the chain have: there are no bonds. *)
Theorem C102_ignored_refuted :
  coupling [lit "TotalNumberOfSites=4"; lit "NumberOfTerms=1"; lit "GeometryKind=chain"; lit "GeometryOptions=ConstantValues"; lit "IsPeriodicX=yes";
    lit "Connectors 1 7"] 0 3 0 = Ok 0%Z /\
  (let c := coupling [lit "TotalNumberOfSites=3"; lit "NumberOfTerms=1"; lit "GeometryKind=longchain"; lit "GeometryOptions=ConstantValues"; lit "LongChainDistance=9";
    lit "Connectors 1 7"] in c 0 1 0 = Ok 0%Z /\ c 0 2 0 = Ok 0%Z /\ c 1 2 0 = Ok 0%Z).
Proof. vm_compute. auto. Qed.
Print Assumptions C102_ignored_refuted.
(** A periodic chain of 4 sites needs 4 connectors, but the bond that closes it, of sites 0 and 3, has the first of them,
    not the fourth, which is used for no bond. *)
Theorem C102_ring_refuted :
  let c := coupling [lit "TotalNumberOfSites=4"; lit "NumberOfTerms=1"; lit "GeometryKind=chain"; lit "GeometryOptions=none"; lit "IsPeriodicX=1";
    lit "Connectors 4 5 6 7 8"] in
  c 0 1 0 = Ok 5%Z /\ c 1 2 0 = Ok 6%Z /\ c 2 3 0 = Ok 7%Z /\ c 3 0 0 = Ok 5%Z /\ c 0 3 0 = Ok 5%Z.
Proof. vm_compute. auto 10. Qed.
Print Assumptions C102_ring_refuted.

(** ** A file that meets the hypotheses: a ladder of two legs and a periodic chain, with one coupling *)
Definition ex_geo : list item :=
  let t l v := IText (lit l) [] (lit v) [] None in
  let c ns := IVec (lit "Connectors") (map (fun s => (lit " ", lit s)) ns) [] in
  [t "TotalNumberOfSites" "6"; t "NumberOfTerms" "2";
   t "GeometryKind" "ladder"; t "GeometryOptions" "none"; t "LadderLeg" "2"; t "IsPeriodicX" "0";
   c ["4"; "1"; "2"; "3"; "4"]; c ["3"; "5"; "6"; "7"];
   t "GeometryKind" "chain"; t "GeometryOptions" "ConstantValues"; t "IsPeriodicX" "1"; c ["1"; "9"]]%string.
Definition ex_ds : list descr :=
  [mkdescr (ALadder 2 (Some 0%Z) None) false (fun d => if d =? 0 then [lit "1"; lit "2"; lit "3"; lit "4"] else [lit "5"; lit "6"; lit "7"]);
   mkdescr (AChain (Some 1%Z) None) true (fun _ => [lit "9"])].
Lemma two_splits {V} (a b : V) x y z : [a; b] = x ++ y :: z -> (x = [] /\ y = a) \/ (x = [a] /\ y = b).
Proof.
  destruct x as [|x0 x]; [left|right]; cbn [app] in H; injection H; intros; subst; auto. destruct x as [|x1 x]; cbn [app] in *.
  - injection H0 as <-. auto.
  - destruct x; discriminate.
Qed.
Lemma written_digits s n : s <> [] -> forallb isdigit s = true -> dec_val s = n -> written s n.
Proof. intros N B <-. exists s. split; [exact N|]. split; [|left; auto]. intros c Hc. rewrite forallb_forall in B. apply isdigit_In. auto. Qed.
Lemma real_check s : isAfloat s = true -> forallb real_chr s = true -> real_text s.
Proof.
  intros A B. rewrite forallb_forall in B. split; [intros c Hc; apply real_chr_In; auto|].
  unfold isAfloat in A. rewrite isAfloat_text in A by auto. cbn [orb] in A. apply existsb_exists in A. destruct A as (c & Hc & D). exists c. split; auto. apply isdigit_In. auto.
Qed.

Definition bad_geo : list item :=
  let t l v := IText (lit l) [] (lit v) [] None in
  [t "TotalNumberOfSites" "4"; t "NumberOfTerms" "1"; t "GeometryKind" "chain"; t "GeometryOptions" "none";
   IVec (lit "Connectors") (map (fun s => (lit " ", lit s)) ["2"; "5"; "6"]) []]%string.

Lemma ex_items : forall x, In x ex_geo \/ In x bad_geo -> item_ok x.
Proof.
  assert (Gp : gap (lit " ")) by (split; [discriminate|]; intros c [<-|[]]; left; left; reflexivity).
  assert (Bn : blanks []) by (intros c []).
  intros x H. unfold ex_geo, bad_geo in H. destruct H as [H|H]; cbn [map] in H; repeat (destruct H as [<-|H]); try destruct H; cbn [item_ok].
  all: first [split; [apply labelb_ok; reflexivity|]; split; [exact Bn|]; split; [apply valueb_ok; reflexivity|]; split; [exact Bn|exact Logic.I] |
    split; [apply labelb_ok; reflexivity|]; split; [simpl; lia|]; split; [|exact Bn];
    intros p H; repeat (destruct H as [<-|H]); [..|destruct H]; (split; [exact Gp|apply numberb_ok; reflexivity])].
Qed.
Lemma ex_separate : separate ex_geo /\ separate bad_geo.
Proof.
  split; intros l; (destruct (str_eqb l (lit "Connectors")) eqn:E; [left; apply str_eqb_eq in E; subst l; vm_compute; reflexivity|right];
    unfold vecs, values_of, ex_geo, bad_geo; cbn [flat_map vecs1 app filter fst map]; rewrite E; reflexivity).
Qed.
Lemma ex_okb : file_ok count_only ex_geo /\ file_ok count_only bad_geo.
Proof.
  assert (V : forall l k rest, k = print_nat (List.length rest) -> vec_fine count_only l (k :: rest)).
  { intros l k rest ->. split; [eexists; reflexivity|]. intros n. exists false. split; auto. right. eexists _, _. split; reflexivity. }
  split; (split; [intros x H; apply ex_items; auto|]; split; [cbn; auto|]; split; [|split; [vm_compute; reflexivity|intros [s H]; vm_compute in H; discriminate]]);
    intros l ns after H; unfold ex_geo, bad_geo in H; cbn [map] in H; repeat (destruct H as [H|H]; [try discriminate H|]); try (exfalso; exact H);
    injection H as <- <- <-; cbn [map snd]; apply V; reflexivity.
Qed.

Example C102_nonvacuous :
  checks_accept accept_label accept_text /\ file_ok count_only ex_geo /\ ex_geo <> [] /\ separate ex_geo /\ geometry_said ex_geo 6 ex_ds /\
  bond 6 (ALadder 2 (Some 0%Z) None) 2 4 0 2 /\ bond 6 (ALadder 2 (Some 0%Z) None) 4 5 1 2 /\ bond 6 (AChain (Some 1%Z) None) 0 5 0 0 /\
  file_ok count_only bad_geo /\ separate bad_geo /\ geometry_starts bad_geo 4 1 [] /\
  (let d := mkdescr (AChain None None) false (fun _ => [lit "5"; lit "6"]) in fits 4 (d_shape d) /\ term_misfit bad_geo 4 (used []) (used_vecs []) d).
Proof.
  destruct ex_okb as [O1 O2]. destruct ex_separate as [S1 S2].
  assert (NC : ~ contains (lit "ConstantValues") (lit "none")).
  { intros (a & b & H). apply (f_equal (@List.length ascii)) in H. rewrite !app_length in H. cbn in H. lia. }
  split; [split; reflexivity|]. split; [exact O1|]. split; [discriminate|]. split; [exact S1|]. split.
  { split; [eexists; vm_compute; reflexivity|]. split; [eexists; vm_compute; reflexivity|]. split; [lia|]. split; [cbn; lia|].
    split; [discriminate|]. split; [reflexivity|]. intros before d after H. apply two_splits in H. destruct H as [[-> ->]|[-> ->]].
    - split.
      + cbn [d_shape fits]. split; [lia|]. split; [exists 3; lia|]. split; [auto|]. split; discriminate.
      + split; [left; reflexivity|]. split; [|split; [|split]].
        * cbn [d_shape shape_said]. split; [split; [discriminate|reflexivity]|]. split; [split; [discriminate|]; split; [apply written_digits; [discriminate|reflexivity..]|lia]|].
          split; [|reflexivity]. split; [discriminate|]. split; [apply written_digits; [discriminate|reflexivity..]|lia].
        * exists (lit "none"). split; [split; [discriminate|reflexivity]|]. cbn [d_const]. split; [discriminate|]. intros H. contradiction.
        * discriminate.
        * intros dir Hd. cbn [d_shape directions] in Hd. assert (Dc : dir = 0 \/ dir = 1) by lia. destruct Dc as [-> | ->];
            (split; [reflexivity|]; split; [|reflexivity]; intros s Hs; repeat (destruct Hs as [<-|Hs]); try destruct Hs; apply real_check; reflexivity).
    - split.
      + cbn [d_shape fits]. split; [lia|]. cbn. split; [lia|]. intros _. lia.
      + split; [left; reflexivity|]. split; [|split; [|split]].
        * cbn [d_shape shape_said]. split; [left; split; [discriminate|reflexivity]|]. split; [|reflexivity].
          split; [discriminate|]. split; [apply written_digits; [discriminate|reflexivity..]|lia].
        * exists (lit "ConstantValues"). split; [split; [discriminate|reflexivity]|]. cbn [d_const]. split; auto. intros _. exists [], []. reflexivity.
        * discriminate.
        * intros dir Hd. cbn [d_shape directions] in Hd. assert (dir = 0) by lia. subst dir.
          split; [reflexivity|]. split; [|reflexivity]. intros s Hs. repeat (destruct Hs as [<-|Hs]); try destruct Hs; apply real_check; reflexivity. }
  split; [apply (ladder_x 6 2 (Some 0%Z) None 1 0); cbn; lia|]. split; [apply (ladder_y 6 2 (Some 0%Z) None 2 0); [reflexivity|cbn; lia..]|].
  split; [apply (chain_ring 6 (Some 1%Z) None 0); [reflexivity|cbn; lia]|].
  split; [exact O2|]. split; [exact S2|]. split.
  { split; [eexists; vm_compute; reflexivity|]. split; [eexists; vm_compute; reflexivity|]. split; [lia|]. split; [lia|].
    split; [discriminate|]. split; [reflexivity|]. intros before d after H. destruct before; discriminate. }
  intros d. split; [cbn; split; [lia|split; [lia|discriminate]]|]. split; [left; reflexivity|]. split; [|split; [|split; [discriminate|]]].
  - split; [left; split; [discriminate|reflexivity]|]. split; reflexivity.
  - exists (lit "none"). split; [split; [discriminate|reflexivity]|]. split; [discriminate|]. intros H. contradiction.
  - exists 0. split; [cbn; lia|]. split; [reflexivity|]. split; [|split; [discriminate|lia]].
    intros s Hs. repeat (destruct Hs as [<-|Hs]); try destruct Hs; apply real_check; reflexivity.
Qed.

(** A file that asks for a ring *)
Definition ring_geo : list item :=
  let t l v := IText (lit l) [] (lit v) [] None in
  [t "TotalNumberOfSites" "4"; t "NumberOfTerms" "1"; t "GeometryKind" "ring"; t "GeometryOptions" "none";
   IVec (lit "Connectors") (map (fun s => (lit " ", lit s)) ["1"; "5"]) []]%string.
Example C102_unknown_nonvacuous : term_none ring_geo (used []) /\ geometry_starts ring_geo 4 1 [] /\
  coupling [lit "TotalNumberOfSites=4"; lit "NumberOfTerms=1"; lit "GeometryKind=ring"; lit "GeometryOptions=none"; lit "Connectors 1 5"] 0 1 0 = Throw.
Proof.
  split; [|split; [|vm_compute; reflexivity]].
  - right. split; [exists None; split; [reflexivity|discriminate]|]. exists (lit "ring"). split; [split; [discriminate|reflexivity]|].
    intros [H|(rest & H)]; [|discriminate]. unfold kinds in H. cbn [map] in H. repeat (destruct H as [H|H]; [discriminate|]). exact H.
  - unfold geometry_starts. split; [eexists; reflexivity|]. split; [eexists; reflexivity|]. split; [lia|]. split; [lia|]. split; [discriminate|]. split; [reflexivity|].
    intros before d after H. destruct before; discriminate.
Qed.
Example C102_negative_nonvacuous :
  counts_negative [IText (lit "TotalNumberOfSites") [] (lit "-4") [] None; IText (lit "GeometryKind") [] (lit "chain") [] None].
Proof.
  split; [discriminate|]. exists (-4)%Z. split; [|left; lia]. split; [discriminate|]. split; [|lia].
  exists (lit "4"). split; [discriminate|]. split; [intros x [<-|[]]; cbn; tauto|]. right. split; reflexivity.
Qed.
(** A honeycomb of two orbitals *)
Example C102_kinds_nonvacuous : exists r r1 r2 r3, after_file (flat_map (fun s => s ++ nl) [lit "DegreesOfFreedom=2"; lit "GeometryKind=Honeycomb"; lit "GeometryOptions=none"]) = Ok r /\
  try_size r (lit "DegreesOfFreedom=") = Ok (Some 2%Z, r1) /\ readline r1 (lit "GeometryKind=") true false = Ok (lit "Honeycomb", r2) /\
  readline r2 (lit "GeometryOptions=") true false = Ok (lit "none", r3).
Proof. do 4 eexists. split; [vm_compute; reflexivity|]. split; [vm_compute; reflexivity|]. split; vm_compute; reflexivity. Qed.
