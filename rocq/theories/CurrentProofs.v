(* Interactions of a sterile neutrino of any identity and mass, from those of the
   one the computations use. *)
From Coq Require Import Reals Lra Permutation ZArith.
From Verif Require Import Base FunctionalModel FunctionalProofs CrossModel CrossProofs CrossProofs2 CrossProofs3 CrossProofs4 ParamsModel ParamsProofs LibModel LibProofs Lib2Proofs Lib3Proofs MatrixModel Matrix2Proofs MatrixProps RelabelProofs LedgerProofs LedgerProps ShapeProofs TermProofs WeakTableProofs WeakTableProps ReciprocityProofs ReciprocityProps ImbalanceProofs ImbalanceProps.
Open Scope R_scope.
Local Notation length := List.length.

Section Sector.
Variables (maj : bool) (id : nat) (M : Z) (t t' : tmpl) (Mel : list mel).
Hypothesis Hid : (27 <= id)%nat.
Hypothesis ER : reactions_of t' = map (map (relabel (swap id M))) (reactions_of t).
Hypothesis HD : forall r, In r (reactions_of t) -> drawn (map sp (company (N0 maj))) r /\ length r = 4%nat.
Hypothesis HO : forall r, In r (reactions_of t) -> in_order r = true.
Hypothesis OK : interaction_ok t' Mel.

Lemma from_reaction out o : cross_generating (species_of t') (tflags t') Mel = Ok out -> In o out ->
  exists r, In r (reactions_of t) /\ map ispecie (ireaction o) = map (swap id M) (map ispecie r) /\ map iside (ireaction o) = map iside r /\
    forall p m, total (Ms o) p m = shapes_amplitude (snd (group t r)) Mel p m.
Proof.
  intros E Ho. destruct OK as (I1 & I2 & I3 & I4). destruct (integrals_amplitude _ _ I1 I2 I3 I4) as (out' & E' & _ & _ & _ & HA). rewrite E in E'. injection E' as <-.
  destruct (HA o Ho) as (ss & Hg & _ & HT). apply in_map_iff in Hg. destruct Hg as (r' & Eg & Hr'). rewrite ER in Hr'. apply in_map_iff in Hr'. destruct Hr' as (r & <- & Hr).
  assert (HI : keeps_identity (swap id M) (map sp (company (N0 maj)))) by (apply swap_identity, company_fresh; exact Hid).
  rewrite (group_relabel (swap id M) (map sp (company (N0 maj))) _ _ r ER HI) in Eg; [|intros x Hx; destruct (HD x Hx) as (D & L); split; [exact D|intros ->; discriminate L]|exact Hr].
  exists r. split; [exact Hr|]. unfold group_of in Eg. injection Eg as E1 E2 E3. split; [now rewrite <- E1|]. split; [now rewrite <- E2|]. intros p m. rewrite HT. f_equal. now rewrite <- E3.
Qed.
Lemma to_integral out r : cross_generating (species_of t') (tflags t') Mel = Ok out -> In r (reactions_of t) ->
  exists o, In o out /\ map ispecie (ireaction o) = map (swap id M) (map ispecie r) /\ map iside (ireaction o) = map iside r.
Proof.
  intros E Hr. pose proof (from_reaction out) as FR. destruct OK as (I1 & I2 & I3 & I4). destruct (integrals_amplitude _ _ I1 I2 I3 I4) as (out' & E' & _ & _ & HR & _). rewrite E in E'. injection E' as <-.
  destruct (HR (map (relabel (swap id M)) r)) as (o & Ho & (_ & PL & _) & Es); [rewrite ER; now apply in_map|]. exists o. split; [exact Ho|]. split; [rewrite <- Es, !map_map; reflexivity|].
  assert (B : length (lefts (ireaction o)) = length (lefts r)).
  { apply Permutation_length in PL. rewrite !map_length in PL. unfold of_reaction in PL. cbn [ireaction] in PL. rewrite <- PL. unfold lefts. rewrite (filter_map_comm (relabel (swap id M)) _ (fun it => (iside it =? -1)%Z)) by reflexivity. now rewrite map_length. }
  destruct (FR o E Ho) as (r' & Hr' & _ & B' & _). rewrite B'. apply in_order_sides; [now apply HO|now apply HO|now apply HD|now apply HD|].
  rewrite <- B, <- !lefts_count, B'. reflexivity.
Qed.
Lemma exists_integrals : exists out, cross_generating (species_of t') (tflags t') Mel = Ok out.
Proof. destruct OK as (I1 & I2 & I3 & I4). destruct (integrals_amplitude _ _ I1 I2 I3 I4) as (out & E & _). eauto. Qed.
End Sector.

(* places of an integral and of the reaction it comes from *)
Lemma places id M o t r : map ispecie (ireaction o) = map (swap id M) (map ispecie r) -> map iside (ireaction o) = map iside r ->
  forall j, species_at o j = option_map (swap id M) (gspecie (group t r) j) /\ side_at o j = gside (group t r) j.
Proof.
  intros R1 R2 j. destruct (group_at o [] j) as (-> & ->). unfold gspecie, gside, group_of, group. cbn [fst snd]. rewrite R1, R2. split; [apply nth_error_map|reflexivity].
Qed.
Lemma moved_lt q j : Permutation q four -> (moved q j < 4)%nat.
Proof.
  intros P. unfold moved. destruct (Nat.lt_ge_cases j (length q)) as [X|X]; [|rewrite nth_overflow by exact X; lia]. apply in_four, (Permutation_in _ P), nth_In, X.
Qed.
(* turning the integrals is turning the reactions *)
Lemma turns_facing maj id M o o' t t2 r r' q k : (27 <= id)%nat ->
  incl (fst (fst (group t r))) (map sp (company (N0 maj))) -> incl (fst (fst (group t2 r'))) (map sp (company (N0 maj))) ->
  map ispecie (ireaction o) = map (swap id M) (map ispecie r) -> map iside (ireaction o) = map iside r ->
  map ispecie (ireaction o') = map (swap id M) (map ispecie r') -> map iside (ireaction o') = map iside r' ->
  Permutation q four -> (turns q o k o' <-> facing (group t r) k q (group t2 r') = true).
Proof.
  intros Hid I I' A B A' B' P. pose proof (swap_species maj id M Hid) as KS. pose proof (places id M o t r A B) as G. pose proof (places id M o' t2 r' A' B') as G'.
  unfold turns, facing. rewrite andb_true_iff, forallb_forall, Nat.eqb_eq. split.
  - intros (_ & Q & HT). split; [exact Q|]. intros j Hj. apply in_four in Hj. destruct (HT j Hj) as (X & Y). rewrite (proj1 (G' j)), (proj1 (G (moved q j))) in X. rewrite (proj2 (G' j)), (proj2 (G k)), (proj2 (G (moved q j))) in Y.
    apply andb_true_intro. split; [|now apply Z.eqb_eq]. rewrite <- (opt_same_relabel (swap id M) (map sp (company (N0 maj)))); eauto using gspecie_in. rewrite X.
    destruct (option_map (swap id M) (gspecie (group t r) (moved q j))) as [s|]; [|reflexivity]. cbn. unfold specie_eqb. now rewrite Nat.eqb_refl, String.eqb_refl, Z.eqb_refl, Bool.eqb_reflx.
  - intros (Q & HT). split; [exact P|]. split; [exact Q|]. intros j Hj. specialize (HT j (proj2 (in_four j) Hj)). apply andb_prop in HT. destruct HT as [X Y]. apply opt_same_eq in X. apply Z.eqb_eq in Y.
    rewrite (proj1 (G' j)), (proj1 (G (moved q j))), (proj2 (G' j)), (proj2 (G k)), (proj2 (G (moved q j))), X, Y. auto.
Qed.
Lemma group_incl maj t r : drawn (map sp (company (N0 maj))) r -> incl (fst (fst (group t r))) (map sp (company (N0 maj))).
Proof. intros D x Hx. unfold group in Hx. cbn [fst] in Hx. apply in_map_iff in Hx. destruct Hx as (it & <- & Hi). now apply D. Qed.
(* the amplitude from the terms *)
Lemma amplitude_terms maj id M fs K1 K2 Mel t r o p : (27 <= id)%nat -> formed K1 K2 0 fs Mel -> within fs = true -> good fs (group t r) = true ->
  drawn (map sp (company (N0 maj))) r ->
  map ispecie (ireaction o) = map (swap id M) (map ispecie r) -> map iside (ireaction o) = map iside r ->
  (forall p m, total (Ms o) p m = shapes_amplitude (snd (group t r)) Mel p m) -> event_amplitude o p = eval K1 K2 p (mass_at o) (gterms fs (group t r)).
Proof.
  intros Hid HF HW HG D R1 R2 R3.
  assert (EG : (group_of o, snd (group t r)) = (map (swap id M) (fst (fst (group t r))), snd (fst (group t r)), snd (group t r))) by (unfold group_of, group; cbn [fst snd]; now rewrite R1, R2).
  rewrite (event_terms fs K1 K2 Mel o (snd (group t r)) p HF HW); [|rewrite EG; exact HG|exact R3]. rewrite EG, (gterms_relabel (swap id M) (map sp (company (N0 maj)))); [reflexivity|apply swap_species, Hid|now apply group_incl].
Qed.
Lemma weight_of maj id M ks r o : (27 <= id)%nat -> sees ks (company (NN maj id M)) -> drawn (map sp (company (N0 maj))) r -> length r = 4%nat ->
  map ispecie (ireaction o) = map (swap id M) (map ispecie r) -> map iside (ireaction o) = map iside r ->
  number_weight ks (ireaction o) = Ok (INR (weight (charged_names (company (N0 maj))) r)).
Proof.
  intros Hid HK D L R1 R2.
  rewrite (number_weight_species ks _ (map (relabel (swap id M)) r)); [|now rewrite R1, !map_map|now rewrite R2, map_map].
  rewrite (weight_ok ks (company (NN maj id M)) _ HK (company_names maj id M)); [|intros it Hi; apply in_map_iff in Hi; destruct Hi as (x & <- & Hx); cbn [relabel ispecie]; destruct (company_swap maj id M (ispecie x) (D x Hx)) as (p & Hp & Ep); exists p; auto|rewrite map_length; now right].
  rewrite company_charged, (weight_relabel (swap id M) _ (map sp (company (N0 maj)))); [reflexivity|apply swap_kind|apply swap_identity, company_fresh, Hid|exact D].
Qed.
Lemma cc_keep_same maj id M ol x r : map ispecie x = map (swap id M) (map ispecie r) -> map iside x = map iside r ->
  cc_keep (NN maj id M) ol x = cc_keep (N0 maj) ol r.
Proof.
  intros A B. unfold cc_keep. replace (lname (NN maj id M)) with (lname (N0 maj)) by (now destruct maj). f_equal. f_equal.
  revert r A B. induction x as [|it x IH]; intros [|ir r] A B; try discriminate; [reflexivity|]. cbn [map] in A, B. injection A as A1 A. injection B as B1 B. specialize (IH r A B). cbn [filter].
  rewrite A1, (proj1 (swap_kind id M _)). destruct (_ || _)%bool; cbn [map]; congruence.
Qed.
