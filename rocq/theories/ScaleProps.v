(* C137: the unit of the compiled momenta. The compiled code works in units of
   params.aT; the collision integrals must not depend on that choice. *)
From Coq Require Import Reals Lra Psatz.
From Coquelicot Require Import Coquelicot.
From Verif Require Import Base FunctionalModel GridsModel DsModel BoundsModel Integrate3Model Integrate4Model ScaleProofs Decay4Proofs.
Open Scope R_scope.

Lemma contribution4_scale G_F a a1 a2 H ss M Ms k min_1 max_1 min_2 max_2 max_3 y x n : 0 < a -> 0 < a1 -> 0 < a2 -> H <> 0 -> (forall n, s_aT (ss n) <> 0) ->
  (K (compiled_M G_F M) = 0 /\ n = 3%nat \/ K (compiled_M G_F M) <> 0 /\ n = 0%nat) ->
  contribution4 G_F a a1 H ss M Ms k min_1 max_1 min_2 max_2 max_3 y x ->
  contribution4 G_F a a2 H ss M Ms k min_1 max_1 min_2 max_2 max_3 y (x * ((a1 / a2) * ((a1 / a2) * (a1 / a2) ^ n)) / (a1 / a2) ^ 5).
Proof.
  intros Ha H1 H2 HH HT HK (I & HI & ->). assert (Hl : 0 < a1 / a2) by (now apply Rdiv_lt_0_compat).
  pose proof (point4_scale (a1 / a2) _ _ _ _ _ n _ _ _ _ _ _ Hl (compiled_rescaled a a1 a2 ss H1 H2 HT) HK HI) as HI'.
  cbn [fst snd bound4 osc option_map] in HI'. unfold compiled_momentum in HI'.
  assert (Q : forall z, a1 / a2 * (z / a1) = z / a2) by (intros; field; lra). rewrite !Q in HI'.
  eexists. split; [exact HI'|]. unfold constant4. pose proof PI_RGT_0. set (c := (a1 / a2) ^ n). field. repeat split; lra.
Qed.

Theorem C137_unit_independent : forall G_F a a1 a2 H ss M Ms k min_1 max_1 min_2 max_2 max_3 y x,
  0 < a -> 0 < a1 -> 0 < a2 -> H <> 0 -> (forall n, s_aT (ss n) <> 0) -> K M = 0 ->
  (contribution4 G_F a a1 H ss M Ms k min_1 max_1 min_2 max_2 max_3 y x <->
   contribution4 G_F a a2 H ss M Ms k min_1 max_1 min_2 max_2 max_3 y x).
Proof.
  assert (G : forall G_F a a1 a2 H ss M Ms k min_1 max_1 min_2 max_2 max_3 y x,
    0 < a -> 0 < a1 -> 0 < a2 -> H <> 0 -> (forall n, s_aT (ss n) <> 0) -> K M = 0 ->
    contribution4 G_F a a1 H ss M Ms k min_1 max_1 min_2 max_2 max_3 y x ->
    contribution4 G_F a a2 H ss M Ms k min_1 max_1 min_2 max_2 max_3 y x).
  { intros G_F a a1 a2 H ss M Ms k n1 x1 n2 x2 x3 y x Ha H1 H2 HH HT HK HC.
    apply (contribution4_scale _ _ _ a2 _ _ _ _ _ _ _ _ _ _ _ _ 3) in HC; try assumption.
    - assert (0 < a1 / a2) by (now apply Rdiv_lt_0_compat).
      replace (x * (a1 / a2 * (a1 / a2 * (a1 / a2) ^ 3)) / (a1 / a2) ^ 5) with x in HC by (field; lra). exact HC.
    - left. split; [|reflexivity]. cbn. rewrite HK. unfold Rdiv. ring. }
  intros. split; apply G; assumption.
Qed.

(* a constant squared amplitude: the result grows with the third power of the unit *)
Theorem C137_constant_amplitude : forall G_F a a1 a2 H ss M Ms k min_1 max_1 min_2 max_2 max_3 y x,
  G_F <> 0 -> 0 < a -> 0 < a1 -> 0 < a2 -> H <> 0 -> (forall n, s_aT (ss n) <> 0) -> K M <> 0 ->
  contribution4 G_F a a1 H ss M Ms k min_1 max_1 min_2 max_2 max_3 y x ->
  contribution4 G_F a a2 H ss M Ms k min_1 max_1 min_2 max_2 max_3 y (x * (a2 / a1) ^ 3).
Proof.
  intros G_F a a1 a2 H ss M Ms k n1 x1 n2 x2 x3 y x HG Ha H1 H2 HH HT HK HC.
  apply (contribution4_scale _ _ _ a2 _ _ _ _ _ _ _ _ _ _ _ _ 0) in HC; try assumption.
  - replace (x * (a1 / a2 * (a1 / a2 * (a1 / a2) ^ 0)) / (a1 / a2) ^ 5) with (x * (a2 / a1) ^ 3) in HC by (field; lra). exact HC.
  - right. split; [|reflexivity]. cbn. unfold unit4, Rdiv. apply Rmult_integral_contrapositive_currified; [exact HK|].
    apply Rinv_neq_0_compat. apply Rmult_integral_contrapositive_currified; [lra|now apply pow_nonzero].
Qed.

Theorem C137_unit_independent_3 : forall K a a1 a2 H ss k min_1 max_1 max_2 y x,
  0 < a -> 0 < a1 -> 0 < a2 -> H <> 0 -> (forall n, s_aT (ss n) <> 0) ->
  (contribution3 K a a1 H ss k min_1 max_1 max_2 y x <-> contribution3 K a a2 H ss k min_1 max_1 max_2 y x).
Proof.
  assert (G : forall K a a1 a2 H ss k min_1 max_1 max_2 y x, 0 < a -> 0 < a1 -> 0 < a2 -> H <> 0 -> (forall n, s_aT (ss n) <> 0) ->
    contribution3 K a a1 H ss k min_1 max_1 max_2 y x -> contribution3 K a a2 H ss k min_1 max_1 max_2 y x).
  { intros K a a1 a2 H ss k n1 x1 x2 y x Ha H1 H2 HH HT (I & HI & ->). assert (Hl : 0 < a1 / a2) by (now apply Rdiv_lt_0_compat).
    pose proof (point3_scale (a1 / a2) _ _ _ _ _ _ _ Hl (compiled_rescaled a a1 a2 ss H1 H2 HT) HI) as HI'.
    unfold psc, compiled_momentum in HI'. cbn [fst snd] in HI'.
    assert (Q : forall z, a1 / a2 * (z / a1) = z / a2) by (intros; field; lra). rewrite !Q in HI'.
    eexists. split; [exact HI'|]. pose proof PI_RGT_0. 
    assert (HQ : forall u v : R, (if Req_EM_T (y / a1) 0 then u else v) = if Req_EM_T y 0 then u else v).
    { intros. replace (y / a1) with (/ a1 * y) by (field; lra). apply if_eq0_scale. now apply Rinv_0_lt_compat. }
    rewrite HQ. unfold constant_0, constant_else.
    destruct (Req_EM_T y 0); [destruct (Req_EM_T (s_mass (ss 0%nat)) 0); [ring|]|]; field; repeat split; lra. }
  intros. split; apply G; assumption.
Qed.

(* A reaction meeting the hypotheses: a particle of mass 1 decaying at rest into
   three massless fermions, every specie at the common temperature *)
Definition ex_species (n : nat) : species4 :=
  match n with
  | O => mkSpecies (-1) 1 [] [] 1 true 1
  | _ => mkSpecies 1 0 [] [] 1 true 1
  end.
Lemma ex_decay a aT : 0 < a -> 0 < aT -> massless_decay (compiled a aT ex_species) (a / aT).
Proof.
  intros. repeat split; try reflexivity; cbn; unfold compiled_mass; try (field; lra).
  intros [|n] p _; eexists; reflexivity.
Qed.
Definition ex_M : matrix_element := mkM (0, 1, 2, 3)%nat 1 0 0.
Definition ex_MK : matrix_element := mkM (0, 1, 2, 3)%nat 0 0 1.
Lemma ex_order : order_ok (0, 1, 2, 3)%nat.
Proof. split; [|repeat split; repeat constructor]. repeat constructor; cbn; intuition discriminate. Qed.
(* the two contributions, in any unit *)
Lemma ex_contribution aT : 0 < aT -> contribution4 1 1 aT 1 ex_species ex_M [] Ff_vacuum 0 10 0 10 10 0 (- / (192 * 64 * PI ^ 3)).
Proof.
  intros HT. exists (- (/ 32 * ((1 / aT) ^ 5 / 192))). split.
  - pose proof (rest_value (compiled 1 aT ex_species) (1 / aT) (compiled_M 1 ex_M) [] (bound4 aT 0) (bound4 aT 10) (10 / aT) (bound4 aT 10)) as HV.
    unfold compiled_momentum. unfold bound4 at 1. replace (0 / aT) with 0 by (unfold Rdiv; ring). cbn [map].
    destruct (Req_EM_T (K (compiled_M 1 ex_M)) 0) as [Z|NZ]; [|exfalso; apply NZ; cbn; unfold Rdiv; ring].
    replace (sum_K1 [compiled_M 1 ex_M]) with (/ 32) in HV by (cbn; unfold unit4; field). apply HV.
    + apply ex_decay; lra.
    + apply Rdiv_lt_0_compat; lra.
    + apply Forall_cons; [exact ex_order|apply Forall_nil].
  - unfold constant4, unit4. pose proof PI_RGT_0. field. split; lra.
Qed.
Lemma ex_contribution_K aT : 0 < aT -> contribution4 1 1 aT 1 ex_species ex_MK [] Ff_vacuum 0 10 0 10 10 0 (- (aT ^ 3 / (512 * PI ^ 3))).
Proof.
  intros HT. exists (- (/ 32 * (1 / aT) ^ 2 / 8)). split.
  - pose proof (rest_value (compiled 1 aT ex_species) (1 / aT) (compiled_M 1 ex_MK) [] (bound4 aT 0) (bound4 aT 10) (10 / aT) (bound4 aT 10)) as HV.
    unfold compiled_momentum. unfold bound4 at 1. replace (0 / aT) with 0 by (unfold Rdiv; ring). cbn [map].
    assert (HK : K (compiled_M 1 ex_MK) = / 32) by (cbn; unfold unit4; field). rewrite HK in HV.
    destruct (Req_EM_T (/ 32) 0) as [Z|NZ]; [exfalso; lra|]. apply HV.
    + apply ex_decay; lra.
    + apply Rdiv_lt_0_compat; lra.
    + apply Forall_cons; [exact ex_order|apply Forall_nil].
  - unfold constant4, unit4. pose proof PI_RGT_0. field. split; lra.
Qed.
Example C137_example : forall aT, 0 < aT ->
  contribution4 1 1 aT 1 ex_species ex_M [] Ff_vacuum 0 10 0 10 10 0 (- / (192 * 64 * PI ^ 3)) /\ - / (192 * 64 * PI ^ 3) < 0.
Proof.
  intros aT HT. split; [now apply ex_contribution|]. pose proof PI_RGT_0. assert (0 < / (192 * 64 * PI ^ 3)); [|lra].
  apply Rinv_0_lt_compat. assert (0 < PI ^ 3) by (now apply pow_lt). lra.
Qed.

(* Unit independence for every matrix element is false: with a constant squared
   amplitude the same state gives different rates in different units. *)
Theorem C137_unit_independent_refuted :
  ~ (forall G_F a a1 a2 H ss M Ms k min_1 max_1 min_2 max_2 max_3 y x,
       G_F <> 0 -> 0 < a -> 0 < a1 -> 0 < a2 -> H <> 0 -> (forall n, s_aT (ss n) <> 0) ->
       contribution4 G_F a a1 H ss M Ms k min_1 max_1 min_2 max_2 max_3 y x ->
       contribution4 G_F a a2 H ss M Ms k min_1 max_1 min_2 max_2 max_3 y x).
Proof.
  intros HA. pose proof PI_RGT_0 as HPI. assert (HP3 : 0 < PI ^ 3) by (now apply pow_lt).
  assert (C1 : contribution4 1 1 1 1 ex_species ex_MK [] Ff_vacuum 0 10 0 10 10 0 (- (1 ^ 3 / (512 * PI ^ 3)))) by (apply ex_contribution_K; lra).
  assert (C2 : contribution4 1 1 2 1 ex_species ex_MK [] Ff_vacuum 0 10 0 10 10 0 (- (2 ^ 3 / (512 * PI ^ 3)))) by (apply ex_contribution_K; lra).
  apply (HA _ _ _ 2) in C1; try lra; [|intros [|n]; cbn; lra].
  destruct C1 as (I & HI & E1). destruct C2 as (I' & HI' & E2). pose proof (point4_unique _ _ _ _ _ _ _ _ _ _ _ HI HI'). subst I'.
  rewrite <- E2 in E1. assert (0 < 1 / (512 * PI ^ 3)) by (apply Rdiv_lt_0_compat; lra).
  assert (2 ^ 3 / (512 * PI ^ 3) = 8 * (1 / (512 * PI ^ 3))) by (field; lra).
  assert (1 ^ 3 / (512 * PI ^ 3) = 1 / (512 * PI ^ 3)) by (field; lra). lra.
Qed.
Print Assumptions C137_unit_independent.
Print Assumptions C137_constant_amplitude.
Print Assumptions C137_unit_independent_3.
Print Assumptions C137_unit_independent_refuted.
