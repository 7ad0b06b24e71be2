(* Collision integrals of the participants of one reaction: the same event seen
   from each of them. *)
From Coq Require Import Reals Lra Permutation ZArith.
From Verif Require Import Base CrossModel CrossProofs CrossProofs2 CrossProofs3 CrossProofs4 ParamsModel LibModel LibProofs MatrixModel Lib2Proofs LedgerProps ShapeProofs TermProofs WeakTableProofs.
Open Scope R_scope.
Local Notation length := List.length.

(* ---------- specification ----------
   A list q of the places 0..3 tells which place takes which. *)
Definition four : list nat := [0; 1; 2; 3]%nat.
Definition arrangements4 : list (list nat) :=
  filter (fun q => forallb (fun i => existsb (Nat.eqb i) q) four) (flat_map (fun a => flat_map (fun b => flat_map (fun c => map (fun d => [a; b; c; d]) four) four) four) four).
Lemma arrangements4_iff q : In q arrangements4 <-> Permutation q four.
Proof.
  unfold arrangements4. rewrite filter_In. split.
  - intros [H E]. apply in_flat_map in H. destruct H as (a & _ & H). apply in_flat_map in H. destruct H as (b & _ & H). apply in_flat_map in H. destruct H as (c & _ & H). apply in_map_iff in H. destruct H as (d & <- & _).
    apply Matrix2Proofs.perm4b; [reflexivity|exact E].
  - intros P. pose proof (Permutation_length P) as L. destruct q as [|a [|b [|c [|d [|]]]]]; try discriminate. split.
    + pose proof (Permutation_in a P ltac:(cbn; tauto)) as A. pose proof (Permutation_in b P ltac:(cbn; tauto)) as B. pose proof (Permutation_in c P ltac:(cbn; tauto)) as C. pose proof (Permutation_in d P ltac:(cbn; tauto)) as D.
      apply in_flat_map. exists a. split; [exact A|]. apply in_flat_map. exists b. split; [exact B|]. apply in_flat_map. exists c. split; [exact C|]. apply in_map_iff. exists d. split; [reflexivity|exact D].
    + apply forallb_forall. intros i Hi. apply existsb_exists. exists i. split; [|apply Nat.eqb_refl]. now apply (Permutation_in i (Permutation_sym P)).
Qed.

Definition species_at (o : integral) (j : nat) : option specie := option_map ispecie (nth_error (ireaction o) j).
Definition side_at (o : integral) (j : nat) : Z := match nth_error (ireaction o) j with Some it => iside it | None => 0%Z end.
(* the arrangements that exchange particles of one species on one side, other
   than the first one; the integral adds these up *)
Definition opt_same (a b : option specie) : bool := match a, b with Some x, Some y => specie_eqb x y | None, None => true | _, _ => false end.
Definition exchanges (o : integral) : list (list nat) :=
  filter (fun q => (moved q 0 =? 0)%nat && forallb (fun j => opt_same (species_at o j) (species_at o (moved q j)) && (side_at o j =? side_at o (moved q j))%Z) four)%bool arrangements4.
Definition rsum_over {A} (l : list A) (f : A -> R) : R := fold_right Rplus 0 (map f l).
Definition event_amplitude (o : integral) (p : nat -> vec4) : R := rsum_over (exchanges o) (fun q => total (Ms o) (fun j => p (moved q j)) (mass_at o)).
(* the integral o' is about the events of o, looked at from place k: its first
   particle is the one at place k of o; if that is an outgoing one the reaction is
   read backwards; the amplitude of every event is the same *)
Definition seen_through (q : list nat) (o : integral) (k : nat) (o' : integral) : Prop :=
  Permutation q four /\ moved q 0 = k /\
    (forall j, (j < 4)%nat -> species_at o' j = species_at o (moved q j) /\ side_at o' j = (- side_at o k * side_at o (moved q j))%Z) /\
    forall p, event_amplitude o' (fun j => p (moved q j)) = event_amplitude o p.

(* ---------- the same, from the lists of species and sides ---------- *)
Definition grp := (list specie * list Z * list (list (nat * bool)))%type.
Definition gspecie (g : grp) (j : nat) : option specie := nth_error (fst (fst g)) j.
Definition gside (g : grp) (j : nat) : Z := nth j (snd (fst g)) 0%Z.
Definition gexchanges (g : grp) : list (list nat) :=
  filter (fun q => (moved q 0 =? 0)%nat && forallb (fun j => opt_same (gspecie g j) (gspecie g (moved q j)) && (gside g j =? gside g (moved q j))%Z) four)%bool arrangements4.
Definition gterms (fs : list form) (g : grp) : list term := flat_map (fun q => map (move q) (terms_of (snd g) fs)) (gexchanges g).
Definition good (fs : list form) (g : grp) : bool := (forallb whole (snd g) && forallb low (terms_of (snd g) fs) && (gside g 0 =? -1)%Z && (length (snd (fst g)) =? 4)%nat && forallb (fun z => (z =? -1) || (z =? 1))%Z (snd (fst g)))%bool.
Definition turned (fs : list form) (g : grp) (k : nat) (q : list nat) (g' : grp) : bool :=
  if ((moved q 0 =? k)%nat && forallb (fun j => opt_same (gspecie g' j) (gspecie g (moved q j)) && (gside g' j =? - gside g k * gside g (moved q j))%Z) four)%bool
  then same_terms (map canon (map (move q) (gterms fs g'))) (map canon (gterms fs g)) else false.
Fixpoint all_same (a b : list specie) : bool := match a, b with [], [] => true | x :: s, y :: t => (specie_eqb x y && all_same s t)%bool | _, _ => false end.
Definition lefts_in (g : grp) : nat := length (filter (fun z => z =? -1)%Z (snd (fst g))).
Definition pictures (ts : list tmpl) : list (list grp) := map (fun t => map (group t) (reactions_of t)) ts.
Definition found_turn (fs : list form) (ps : list (list grp)) (g : grp) (k : nat) : bool :=
  existsb (fun gs => existsb (fun g' => existsb (fun q => if turned fs g k q g' then forallb (fun g'' => implb (all_same (fst (fst g'')) (fst (fst g')) && (lefts_in g'' =? lefts_in g')%nat) (turned fs g k q g'')) gs else false) arrangements4) gs) ps.
Definition reciprocal (fs : list form) (ts : list tmpl) : bool :=
  let ps := pictures ts in
  forallb (fun gs => forallb (fun g => good fs g && forallb (found_turn fs ps g) four)%bool gs) ps.

Lemma opt_same_eq a b : opt_same a b = true -> a = b.
Proof. destruct a, b; cbn; intros H; try discriminate; [|reflexivity]. apply specie_eqb_eq in H. now f_equal. Qed.
Lemma all_same_refl a : all_same a a = true.
Proof. induction a as [|x a IH]; [reflexivity|]. cbn. rewrite IH. unfold specie_eqb. rewrite Nat.eqb_refl, String.eqb_refl, Z.eqb_refl, Bool.eqb_reflx. reflexivity. Qed.
Lemma lefts_count r : length (filter (fun z => z =? -1)%Z (map iside r)) = length (lefts r).
Proof. unfold lefts. induction r as [|it r IH]; [reflexivity|]. cbn [map filter]. destruct (iside it =? -1)%Z; cbn [length]; now rewrite IH. Qed.
Lemma group_at o ss j : species_at o j = gspecie (group_of o, ss) j /\ side_at o j = gside (group_of o, ss) j.
Proof.
  unfold species_at, side_at, gspecie, gside, group_of. cbn [fst snd]. rewrite nth_error_map. split; [reflexivity|].
  destruct (nth_error (ireaction o) j) as [it|] eqn:E.
  - symmetry. apply nth_error_nth. rewrite nth_error_map, E. reflexivity.
  - symmetry. apply nth_overflow. rewrite map_length. now apply nth_error_None.
Qed.
Lemma group_exchanges o ss : exchanges o = gexchanges (group_of o, ss).
Proof.
  unfold exchanges, gexchanges. apply filter_ext. intros q. f_equal. induction four as [|j l IH]; [reflexivity|]. cbn [forallb]. rewrite IH.
  destruct (group_at o ss j) as (-> & ->), (group_at o ss (moved q j)) as (-> & ->). reflexivity.
Qed.
Lemma mass_species o j : mass_at o j = match species_at o j with Some s => IZR (smass s) * eV | None => 0 end.
Proof. unfold mass_at, species_at. now destruct (nth_error _ _). Qed.
Lemma in_four j : In j four <-> (j < 4)%nat.
Proof. cbn. lia. Qed.

Lemma event_terms fs K1 K2 M o ss p : formed K1 K2 0 fs M -> within fs = true -> good fs (group_of o, ss) = true ->
  (forall p m, total (Ms o) p m = shapes_amplitude ss M p m) -> event_amplitude o p = eval K1 K2 p (mass_at o) (gterms fs (group_of o, ss)).
Proof.
  intros HF HW HG HT. apply andb_prop in HG. destruct HG as [HG _]. apply andb_prop in HG. destruct HG as [HG _]. apply andb_prop in HG. destruct HG as [HG _]. apply andb_prop in HG. destruct HG as [HG HL]. cbn [snd] in HG, HL. unfold event_amplitude, gterms. rewrite (group_exchanges o ss). cbn [snd].
  assert (HX : forall q, In q (gexchanges (group_of o, ss)) -> forall j, (j < 4)%nat -> mass_at o j = mass_at o (moved q j)).
  { intros q Hq j Hj. apply filter_In in Hq. destruct Hq as [_ Hq]. apply andb_prop in Hq. destruct Hq as [_ Hq]. rewrite forallb_forall in Hq. specialize (Hq j (proj2 (in_four j) Hj)).
    apply andb_prop in Hq. destruct Hq as [Hq _]. apply opt_same_eq in Hq. rewrite !mass_species. destruct (group_at o ss j) as (-> & _), (group_at o ss (moved q j)) as (-> & _). now rewrite Hq. }
  revert HX. generalize (gexchanges (group_of o, ss)) as qs. intros qs HX. unfold rsum_over. induction qs as [|q qs IH]; [reflexivity|]. cbn [map fold_right flat_map]. rewrite eval_app, IH by (intros; apply HX; [now right|assumption]).
  f_equal. rewrite HT, (terms_shapes K1 K2 ss fs M _ _ HG HW HF). apply eval_move; [|exact HL]. apply HX. now left.
Qed.
Definition interaction_ok (t : tmpl) (M : list mel) : Prop := flags_fit t /\ told_apart (parts t) /\ length (parts t) = 4%nat /\ Forall proper M.
Lemma heads_left fs M ts t out o : (forall t, In t ts -> interaction_ok t M) -> reciprocal fs ts = true -> In t ts -> cross_generating (species_of t) (tflags t) M = Ok out -> In o out ->
  side_at o 0 = (-1)%Z /\ length (ireaction o) = 4%nat /\ (forall it, In it (ireaction o) -> iside it = (-1)%Z \/ iside it = 1%Z).
Proof.
  intros HI HR Ht E Ho. unfold reciprocal in HR. rewrite forallb_forall in HR.
  destruct (HI t Ht) as (I1 & I2 & I3 & I4). destruct (integrals_amplitude t M I1 I2 I3 I4) as (out1 & E1 & _ & _ & _ & HA). rewrite E in E1. injection E1 as <-.
  destruct (HA o Ho) as (ss & Hg & _ & _). specialize (HR (map (group t) (reactions_of t)) (in_map (fun t => map (group t) (reactions_of t)) _ _ Ht)). rewrite forallb_forall in HR. specialize (HR _ Hg).
  apply andb_prop in HR. destruct HR as [G _]. apply andb_prop in G. destruct G as [G G5]. apply andb_prop in G. destruct G as [G G4]. apply andb_prop in G. destruct G as [_ G3].
  apply Z.eqb_eq in G3. apply Nat.eqb_eq in G4. unfold group_of in G4, G5. cbn [fst snd] in G4, G5. rewrite map_length in G4. destruct (group_at o ss 0) as (_ & ->). split; [exact G3|]. split; [exact G4|].
  intros it Hi. rewrite forallb_forall in G5. specialize (G5 _ (in_map iside _ _ Hi)). apply orb_prop in G5. destruct G5 as [G5|G5]; apply Z.eqb_eq in G5; auto.
Qed.
Lemma reciprocal_ok fs K1 K2 M ts t out o k : formed K1 K2 0 fs M -> within fs = true -> (forall t, In t ts -> interaction_ok t M) -> reciprocal fs ts = true ->
  In t ts -> cross_generating (species_of t) (tflags t) M = Ok out -> In o out -> (k < 4)%nat ->
  exists t' out' o', In t' ts /\ cross_generating (species_of t') (tflags t') M = Ok out' /\ In o' out' /\ (exists q, seen_through q o k o') /\ side_at o' 0 = (-1)%Z /\ length (ireaction o') = 4%nat /\ (forall it, In it (ireaction o') -> iside it = (-1)%Z \/ iside it = 1%Z).
Proof.
  intros HF HW HI HR Ht E Ho Hk. assert (HR0 := HR). unfold reciprocal in HR. rewrite forallb_forall in HR.
  assert (HG : forall t, In t ts -> forall g, In g (map (group t) (reactions_of t)) -> good fs g = true /\ found_turn fs (pictures ts) g k = true).
  { intros u Hu g Hg. specialize (HR (map (group u) (reactions_of u)) (in_map _ _ _ Hu)). rewrite forallb_forall in HR. specialize (HR g Hg). apply andb_prop in HR. destruct HR as [G1 G2]. split; [exact G1|].
    rewrite forallb_forall in G2. apply G2. now apply in_four. }
  destruct (HI t Ht) as (I1 & I2 & I3 & I4). destruct (integrals_amplitude t M I1 I2 I3 I4) as (out1 & E1 & _ & _ & _ & HA). rewrite E in E1. injection E1 as <-.
  destruct (HA o Ho) as (ss & Hg & _ & HT). destruct (HG t Ht _ Hg) as (G1 & G2). unfold found_turn in G2. apply existsb_exists in G2. destruct G2 as (gs & Igs & G2). apply in_map_iff in Igs. destruct Igs as (t' & <- & Ht').
  apply existsb_exists in G2. destruct G2 as (g' & Ig' & G2). apply existsb_exists in G2. destruct G2 as (q & Iq & G2).
  destruct (turned fs (group_of o, ss) k q g') eqn:ET; [|discriminate]. rewrite forallb_forall in G2. apply in_map_iff in Ig'. destruct Ig' as (r' & <- & Ir').
  destruct (HI t' Ht') as (J1 & J2 & J3 & J4). destruct (integrals_amplitude t' M J1 J2 J3 J4) as (out' & E' & _ & _ & Hr' & HA'). destruct (Hr' r' Ir') as (o' & Io' & (_ & EL & _) & Es).
  destruct (HA' o' Io') as (ss' & Hg' & _ & HT'). specialize (G2 _ Hg'). assert (ES : fst (fst (group_of o', ss')) = fst (fst (group t' r'))) by (unfold group_of, group; cbn [fst]; now rewrite Es). rewrite ES, all_same_refl in G2.
  assert (EN : lefts_in (group_of o', ss') = lefts_in (group t' r')).
  { apply Permutation_length in EL. rewrite !map_length in EL. unfold lefts_in, group_of, group. cbn [fst snd]. rewrite !lefts_count. symmetry. exact EL. }
  rewrite EN, Nat.eqb_refl in G2. cbn [implb andb] in G2.
  exists t', out', o'. split; [exact Ht'|]. split; [exact E'|]. split; [exact Io'|].
  assert (HO := heads_left fs M ts t' out' o' HI HR0 Ht' E' Io').
  split; [|exact HO]. exists q. split; [now apply arrangements4_iff|].
  unfold turned in G2. destruct (_ && _)%bool eqn:EB in G2; [|discriminate]. apply andb_prop in EB. destruct EB as [EB1 EB2]. apply Nat.eqb_eq in EB1. split; [exact EB1|].
  rewrite forallb_forall in EB2.
  assert (HS : forall j, (j < 4)%nat -> species_at o' j = species_at o (moved q j) /\ side_at o' j = (- side_at o k * side_at o (moved q j))%Z).
  { intros j Hj. specialize (EB2 j (proj2 (in_four j) Hj)). apply andb_prop in EB2. destruct EB2 as [A B]. apply opt_same_eq in A. apply Z.eqb_eq in B.
    destruct (group_at o' ss' j) as (-> & ->), (group_at o ss (moved q j)) as (-> & ->), (group_at o ss k) as (_ & ->). auto. }
  split; [exact HS|]. intros p. destruct (HG t' Ht' _ Hg') as (G1' & _).
  rewrite (event_terms fs K1 K2 M o' ss' _ HF HW G1' HT'), (event_terms fs K1 K2 M o ss _ HF HW G1 HT).
  rewrite (eval_move K1 K2 q p (mass_at o') (mass_at o)).
  - now apply same_eval.
  - intros j Hj. rewrite !mass_species. destruct (HS j Hj) as (-> & _). reflexivity.
  - unfold gterms. apply forallb_forall. intros x Hx. apply in_flat_map in Hx. destruct Hx as (q' & Iq' & Hx). apply in_map_iff in Hx. destruct Hx as (y & <- & Hy).
    apply filter_In in Iq'. destruct Iq' as [Iq' _]. apply arrangements4_iff in Iq'. 
    assert (HM : forall j, (moved q' j < 4)%nat).
    { intros j. unfold moved. destruct (Nat.lt_ge_cases j (length q')) as [L|L]; [|rewrite nth_overflow by exact L; lia]. apply in_four, (Permutation_in _ Iq'), nth_In, L. }
    unfold low, move. cbn [t1 t2 t3 t4]. rewrite !(proj2 (Nat.ltb_lt _ _) (HM _)). reflexivity.
Qed.
