(* C61-C64, C103. Statements use `energy`, the polygon and triangle inequalities
   (BoundsProofs.polygon4, triangle) and energy conservation. *)
From Coq Require Import Reals Lra Psatz Permutation.
From Verif Require Import Base FunctionalModel DsModel DsProofs DsLimits BoundsModel BoundsProofs BoundsProofs3 BoundsLoop.
Open Scope R_scope.

(* a reaction given by its masses and sides *)
Definition reaction_of (ms : list R) (ss : list Z) : nat -> participant :=
  fun n => mkParticipant (nth n ms 0) (mkLeg (nth n ss 1%Z) 1) (fun _ => Ok 0).

(* ---------- C61 ---------- *)
Theorem C61_four_particle_cutoff : forall p E m, (forall n, (n < 4)%nat -> 0 <= p n) ->
  in_bounds4 p E m = true <->
  m 3%nat <= E 3%nat /\ p 0%nat <= p 1%nat + p 2%nat + p 3%nat /\ p 1%nat <= p 2%nat + p 3%nat + p 0%nat /\
  p 2%nat <= p 3%nat + p 0%nat + p 1%nat /\ p 3%nat <= p 0%nat + p 1%nat + p 2%nat.
Proof. exact in_bounds4_iff. Qed.
Print Assumptions C61_four_particle_cutoff.
Theorem C61_three_particle_cutoff : forall p, 0 <= p 0%nat -> 0 <= p 1%nat -> 0 <= p 2%nat ->
  let '(a, b, c) := (p 0%nat, p 1%nat, p 2%nat) in
  (in_bounds3 p = 2 <-> a < b + c /\ b < c + a /\ c < a + b) /\
  (in_bounds3 p = 1 <-> (a = b + c \/ b = c + a \/ c = a + b) /\ 0 < a /\ 0 < b /\ 0 < c) /\
  (in_bounds3 p = 0 \/ in_bounds3 p = 1 \/ in_bounds3 p = 2).
Proof.
  intros p Ha Hb Hc. pose proof (in_bounds3_value p Ha Hb Hc) as V. unfold strict_triangle, flat, triangle in V.
  destruct V as [(S1 & ->)|[(F & P1 & P2 & P3 & ->)|(F & ->)]]; (split; [|split]);
    try (right; right; reflexivity); try (right; left; reflexivity); try (left; reflexivity);
    (split; [intros Q; try lra | intros Q]); try (exfalso; lra); auto.
Qed.
Print Assumptions C61_three_particle_cutoff.
Theorem C61_order_independent : forall p q E m n, (forall k, (k < 4)%nat -> 0 <= p k) ->
  Permutation [p 0; p 1; p 2; p 3]%nat [q 0; q 1; q 2; q 3]%nat -> E 3%nat = n 3%nat -> forall m', m 3%nat = m' 3%nat ->
  in_bounds4 p E m = in_bounds4 q n m'.
Proof.
  intros p q E m E' Hp HP HE m' Hm.
  assert (Hq : forall k, (k < 4)%nat -> 0 <= q k).
  { intros k Hk. assert (In (q k) [p 0; p 1; p 2; p 3]%nat) as I.
    { eapply Permutation_in; [symmetry; exact HP|]. do 4 (destruct k as [|k]; [cbn; tauto|]). lia. }
    cbn in I. destruct I as [<-|[<-|[<-|[<-|[]]]]]; apply Hp; lia. }
  apply Bool.eq_true_iff_eq. rewrite in_bounds4_iff, in_bounds4_iff by auto. rewrite HE, Hm.
  enough (polygon4 (p 0%nat) (p 1%nat) (p 2%nat) (p 3%nat) <-> polygon4 (q 0%nat) (q 1%nat) (q 2%nat) (q 3%nat)) by tauto.
  assert (G : forall a b c d l, Permutation [a; b; c; d] l -> polygon4 a b c d <-> (forall x, In x l -> 2 * x <= fold_right Rplus 0 l)).
  { intros a b c d l HPl.
    assert (HS : fold_right Rplus 0 l = a + b + c + d).
    { assert (fold_right Rplus 0 [a; b; c; d] = fold_right Rplus 0 l).
      { clear -HPl. induction HPl; cbn in *; try lra; congruence. }
      cbn in H. lra. }
    rewrite HS. unfold polygon4. split.
    - intros PG x Hx. apply (Permutation_in x (Permutation_sym HPl)) in Hx. cbn in Hx. destruct Hx as [<-|[<-|[<-|[<-|[]]]]]; lra.
    - intros Q. assert (QQ : forall x, In x [a; b; c; d] -> 2 * x <= a + b + c + d) by (intros x Hx; apply Q; eapply Permutation_in; eauto).
      pose proof (QQ a ltac:(cbn; tauto)). pose proof (QQ b ltac:(cbn; tauto)). pose proof (QQ c ltac:(cbn; tauto)). pose proof (QQ d ltac:(cbn; tauto)). lra. }
  rewrite (G _ _ _ _ _ HP). rewrite (G _ _ _ _ _ (Permutation_refl [q 0; q 1; q 2; q 3]%nat)). reflexivity.
Qed.
Print Assumptions C61_order_independent.
Theorem C61_three_particle_order_independent : forall p q, Permutation [p 0; p 1; p 2]%nat [q 0; q 1; q 2]%nat ->
  0 <= p 0%nat -> 0 <= p 1%nat -> 0 <= p 2%nat -> in_bounds3 p = in_bounds3 q.
Proof.
  intros p q HP H0 H1 H2.
  assert (Hq : forall x, In x [q 0; q 1; q 2]%nat -> 0 <= x).
  { intros x Hx. apply (Permutation_in x (Permutation_sym HP)) in Hx. cbn in Hx. destruct Hx as [<-|[<-|[<-|[]]]]; auto. }
  pose proof (Hq (q 0%nat) ltac:(cbn; tauto)). pose proof (Hq (q 1%nat) ltac:(cbn; tauto)). pose proof (Hq (q 2%nat) ltac:(cbn; tauto)).
  pose proof (C61_three_particle_cutoff p H0 H1 H2) as A. pose proof (C61_three_particle_cutoff q H H3 H4) as B. cbv beta iota in A, B.
  destruct A as (A2 & A1 & A0), B as (B2 & B1 & B0).
  apply perm3_inv in HP.
  assert (S2 : in_bounds3 p = 2 <-> in_bounds3 q = 2).
  { rewrite A2, B2. clear -HP. destruct HP as [HP|[HP|[HP|[HP|[HP|HP]]]]]; destruct HP as (E1 & E2 & E3); rewrite E1, E2, E3; lra. }
  assert (S1 : in_bounds3 p = 1 <-> in_bounds3 q = 1).
  { rewrite A1, B1. clear -HP. destruct HP as [HP|[HP|[HP|[HP|[HP|HP]]]]]; destruct HP as (E1 & E2 & E3); rewrite E1, E2, E3; lra. }
  destruct A0 as [A0|[A0|A0]].
  - destruct B0 as [B0|[B0|B0]]; [now rewrite A0, B0| |]; exfalso; [apply (proj2 S1) in B0|apply (proj2 S2) in B0]; rewrite A0 in B0; revert B0; clear; lra.
  - pose proof (proj1 S1 A0) as B. now rewrite A0, B.
  - pose proof (proj1 S2 A0) as B. now rewrite A0, B.
Qed.
Print Assumptions C61_three_particle_order_independent.
Example C61_case : in_bounds4 (fun n => if (n =? 0)%nat then 3 else 1) (fun _ => 1) (fun _ => 0) = true /\
  in_bounds4 (fun n => if (n =? 0)%nat then 4 else 1) (fun _ => 1) (fun _ => 0) = false.
Proof.
  split.
  - apply in_bounds4_iff; [|unfold polygon4; cbn; lra]. intros n _. destruct (n =? 0)%nat; lra.
  - apply Bool.not_true_iff_false. rewrite in_bounds4_iff; [unfold polygon4; cbn; lra|]. intros n _. destruct (n =? 0)%nat; lra.
Qed.

(* ---------- C62 ---------- *)
(* inside the limits the loop hands to the outer and the inner quadrature *)
Theorem C62_decay_covers : forall rs M Ms k min_1 max_1 lim2 max_3 p0 p1 p2, masses_ok rs -> sides_are rs (-1) 1 1 1 ->
  0 <= p0 -> 0 <= p1 -> 0 <= p2 -> min_1 <= p1 ->
  integrand4 rs M Ms k p0 p1 p2 <> Ok 0 ->
  covered rs (Some min_1, max_1) lim2 max_3 p0 p1 p2.
Proof. intros. eapply cover_decay; eauto; [reflexivity|]. eapply support4; eauto. Qed.
Print Assumptions C62_decay_covers.
Theorem C62_scattering_covers : forall rs M Ms k min_1 max_1 lim2 max_3 p0 p1 p2, masses_ok rs -> sides_are rs (-1) (-1) 1 1 ->
  0 <= p0 -> 0 <= p1 -> 0 <= p2 -> p1 <= max_1 ->
  integrand4 rs M Ms k p0 p1 p2 <> Ok 0 ->
  covered rs (min_1, Some max_1) lim2 max_3 p0 p1 p2.
Proof. intros. eapply cover_scattering; eauto; [reflexivity|]. eapply support4; eauto. Qed.
Print Assumptions C62_scattering_covers.
Theorem C62_creation_covers : forall rs M Ms k st lim2 max_3 p0 p1 p2, masses_ok rs -> sides_are rs (-1) (-1) (-1) 1 ->
  mass (rs 3%nat) <> 0 -> 0 <= p0 -> 0 <= p1 -> 0 <= p2 ->
  let E3 := energy p0 (mass (rs 0%nat)) + energy p1 (mass (rs 1%nat)) + energy p2 (mass (rs 2%nat)) in
  sqrt (E3 ^ 2 - mass (rs 3%nat) ^ 2) < max_3 ->
  integrand4 rs M Ms k p0 p1 p2 <> Ok 0 ->
  covered rs st lim2 max_3 p0 p1 p2.
Proof.
  intros rs M Ms k st lim2 max_3 p0 p1 p2 Hm Hs H3 H0 H1 H2 E3 HE HI. eapply cover_creation; eauto; [|eapply support4; eauto].
  unfold p3_of, E3_of. destruct Hs as (-> & -> & -> & ->). unfold E3 in HE.
  match goal with |- sqrt (?a ^ 2 - _) < _ => replace a with (energy p0 (mass (rs 0%nat)) + energy p1 (mass (rs 1%nat)) + energy p2 (mass (rs 2%nat))) by (cbv [IZR IPR IPR_2]; ring) end.
  exact HE.
Qed.
Print Assumptions C62_creation_covers.
(* a decay of a particle of mass 3 into massless ones, all momenta 1 *)
Example C62_case : exists rs, masses_ok rs /\ sides_are rs (-1) 1 1 1 /\ allowed4 rs 0 1 1.
Proof.
  exists (reaction_of [3; 0; 0; 0] [(-1)%Z; 1%Z; 1%Z; 1%Z]). split; [|split].
  - intros n. do 4 (destruct n as [|n]; [cbn; lra|]). destruct n; cbn; lra.
  - repeat split.
  - assert (HE : E3_of (reaction_of [3; 0; 0; 0] [(-1)%Z; 1%Z; 1%Z; 1%Z]) 0 1 1 = 1).
    { unfold E3_of. cbn [reaction_of mass nth sides_of plg side]. rewrite energy_rest by lra. rewrite energy_zero by lra. lra. }
    unfold allowed4, p3_of. rewrite HE. cbn [reaction_of mass nth]. replace (1 ^ 2 - 0 ^ 2) with (1 ^ 2) by ring. rewrite sqrt_pow2 by lra. unfold polygon4. lra.
Qed.

(* ---------- C63 ---------- *)
Theorem C63_decay_limits_exact : forall rs max_2 st p0, masses_ok rs -> sides3_are rs (-1) 1 1 ->
  mass (rs 1%nat) + mass (rs 2%nat) < mass (rs 0%nat) -> 0 < p0 ->
  exists lo hi, snd (p1_step3 rs max_2 st p0) = Some (lo, hi) /\ forall p1, 0 <= p1 ->
  let E2 := energy p0 (mass (rs 0%nat)) - energy p1 (mass (rs 1%nat)) in
  let p2 := sqrt (E2 ^ 2 - mass (rs 2%nat) ^ 2) in
  (lo <= p1 <= hi <-> mass (rs 2%nat) <= E2 /\ p0 <= p1 + p2 /\ p1 <= p2 + p0 /\ p2 <= p0 + p1).
Proof.
  intros rs max_2 st p0 Hm Hs Hth H0. destruct (decay3_exact rs max_2 st p0 Hm Hs Hth H0) as (lo & hi & E & X).
  exists lo, hi. split; [exact E|]. intros p1 H1. cbv zeta. rewrite (X p1 H1). unfold allowed3, p2_of, triangle.
  assert (HE : E2_of rs p0 p1 = energy p0 (mass (rs 0%nat)) - energy p1 (mass (rs 1%nat))).
  { unfold E2_of. destruct Hs as (-> & -> & ->). cbv [IZR IPR IPR_2]. ring. }
  rewrite HE. reflexivity.
Qed.
Print Assumptions C63_decay_limits_exact.
Theorem C63_creation_limits_exact : forall rs max_2 st p0, masses_ok rs -> sides3_are rs (-1) (-1) 1 ->
  mass (rs 0%nat) + mass (rs 1%nat) < mass (rs 2%nat) -> 0 < p0 -> 0 <= max_2 ->
  let E2 p1 := energy p0 (mass (rs 0%nat)) + energy p1 (mass (rs 1%nat)) in
  let p2 p1 := sqrt (E2 p1 ^ 2 - mass (rs 2%nat) ^ 2) in
  let possible p1 := mass (rs 2%nat) <= E2 p1 /\ (p0 <= p1 + p2 p1 /\ p1 <= p2 p1 + p0 /\ p2 p1 <= p0 + p1) /\ p2 p1 <= max_2 in
  match snd (p1_step3 rs max_2 st p0) with
  | Some (lo, hi) => forall p1, 0 <= p1 -> (lo <= p1 <= hi <-> possible p1)
  | None => forall p1 p1', 0 <= p1 -> 0 <= p1' -> possible p1 -> possible p1' -> p1 = p1'
  end.
Proof.
  intros rs max_2 st p0 Hm Hs Hth H0 HM. pose proof (creation3_exact rs max_2 st p0 Hm Hs Hth H0 HM) as X. cbv zeta.
  assert (HE : forall p1, E2_of rs p0 p1 = energy p0 (mass (rs 0%nat)) + energy p1 (mass (rs 1%nat))).
  { intros p1. unfold E2_of. destruct Hs as (-> & -> & ->). cbv [IZR IPR IPR_2]. ring. }
  unfold allowed3, p2_of, triangle in X. destruct (snd (p1_step3 rs max_2 st p0)) as [(lo & hi)|].
  - intros p1 H1. rewrite (X p1 H1); rewrite ?HE; clear; tauto.
  - intros p1 p1' H1 H1' P P'. apply (X p1 p1' H1 H1'); rewrite HE; clear -P P'; tauto.
Qed.
Print Assumptions C63_creation_limits_exact.
(* at p0 = 0 the back-to-back momentum at which the integrand is evaluated *)
Theorem C63_at_rest : forall m, (forall n, 0 <= m n) -> 0 < m 0%nat ->
  m 1%nat + m 2%nat < m 0%nat \/ m 0%nat + m 1%nat < m 2%nat ->
  exists p, p1_bounds_1 m = Some p /\ 0 < p /\ forall q, 0 <= q ->
  (m 1%nat + m 2%nat < m 0%nat -> (energy q (m 1%nat) + energy q (m 2%nat) = m 0%nat <-> q = p)) /\
  (m 0%nat + m 1%nat < m 2%nat -> (m 0%nat + energy q (m 1%nat) = energy q (m 2%nat) <-> q = p)).
Proof. exact rest3. Qed.
Print Assumptions C63_at_rest.
Example C63_case : exists rs, masses_ok rs /\ sides3_are rs (-1) 1 1 /\ mass (rs 1%nat) + mass (rs 2%nat) < mass (rs 0%nat).
Proof.
  exists (reaction_of [5; 3; 1] [(-1)%Z; 1%Z; 1%Z]). split; [|split]; [|repeat split|cbn; lra].
  intros n. do 3 (destruct n as [|n]; [cbn; lra|]). destruct n; cbn; lra.
Qed.

(* ---------- C64 ---------- *)
(* every number of threads and every interleaving gives the entries of the
   single iterations *)
Theorem C64_decay_schedule_independent : forall value rs min_1 max_1 max_3 ps trace trace', side_sum rs 4 = DECAY ->
  complete (length ps) trace -> complete (length ps) trace' ->
  integration4 value rs min_1 max_1 max_3 ps trace = integration4 value rs min_1 max_1 max_3 ps trace'.
Proof. intros. now rewrite !decay_schedule. Qed.
Print Assumptions C64_decay_schedule_independent.
Theorem C64_creation_schedule_independent : forall value rs min_1 max_1 max_3 ps trace trace', side_sum rs 4 = CREATION ->
  complete (length ps) trace -> complete (length ps) trace' ->
  integration4 value rs min_1 max_1 max_3 ps trace = integration4 value rs min_1 max_1 max_3 ps trace'.
Proof. intros. now rewrite !creation_schedule. Qed.
Print Assumptions C64_creation_schedule_independent.
Theorem C64_three_particle_schedule_independent : forall value rs min_1 max_1 max_2 ps trace trace',
  complete (length ps) trace -> complete (length ps) trace' ->
  integration3 value rs min_1 max_1 max_2 ps trace = integration3 value rs min_1 max_1 max_2 ps trace'.
Proof. intros. now rewrite !(schedule3 value rs min_1 max_1 max_2 ps). Qed.
Print Assumptions C64_three_particle_schedule_independent.
(* scattering: as long as the threshold momentum stays below a third of the grid *)
Theorem C64_scattering_schedule_independent : forall value rs min_1 max_1 max_3 ps trace trace', side_sum rs 4 = SCATTERING ->
  (forall p, In p ps -> 3 * scat_min rs p <= max_1) ->
  complete (length ps) trace -> complete (length ps) trace' ->
  integration4 value rs min_1 max_1 max_3 ps trace = integration4 value rs min_1 max_1 max_3 ps trace'.
Proof. intros. now rewrite !scattering_schedule. Qed.
Print Assumptions C64_scattering_schedule_independent.
(* ... in particular when the products are not heavier than the first particle *)
Theorem C64_exothermic_scattering : forall value rs min_1 max_1 max_3 ps trace trace', side_sum rs 4 = SCATTERING ->
  mass (rs 2%nat) + mass (rs 3%nat) <= mass (rs 0%nat) -> 0 <= max_1 ->
  complete (length ps) trace -> complete (length ps) trace' ->
  integration4 value rs min_1 max_1 max_3 ps trace = integration4 value rs min_1 max_1 max_3 ps trace'.
Proof.
  intros value rs min_1 max_1 max_3 ps trace trace' Ht Hm H1 C C'. apply C64_scattering_schedule_independent; auto.
  intros p _. unfold scat_min. pose proof (energy_ge_m p (mass (rs 0%nat))). destruct (Rle_dec _ 0); lra.
Qed.
Print Assumptions C64_exothermic_scattering.
(* otherwise a thread keeps the enlarged upper limit for its later iterations *)
Theorem C64_scattering_schedule_refuted : exists value rs min_1 max_1 max_3 ps trace trace', side_sum rs 4 = SCATTERING /\ masses_ok rs /\
  complete (length ps) trace /\ complete (length ps) trace' /\
  integration4 value rs min_1 max_1 max_3 ps trace <> integration4 value rs min_1 max_1 max_3 ps trace'.
Proof.
  exists (fun _ l => match l with (Some a, Some b) => b - a | _ => 0 end), (reaction_of [0; 0; 1; 2] [(-1)%Z; (-1)%Z; 1%Z; 1%Z]), 0, 1, 1,
    [0; 2], [(0, 0); (0, 1)]%nat, [(0, 0); (1, 1)]%nat.
  split; [reflexivity|]. split; [intros n; do 4 (destruct n as [|n]; [cbn; lra|]); destruct n; cbn; lra|].
  split; [apply Permutation_refl|]. split; [apply Permutation_refl|].
  unfold integration4. cbn [run map nth Nat.eqb]. unfold p1_step.
  replace (side_sum (reaction_of [0; 0; 1; 2] [(-1)%Z; (-1)%Z; 1%Z; 1%Z]) 4) with 0%Z by reflexivity.
  replace (0 =? DECAY)%Z with false by reflexivity. replace (0 =? SCATTERING)%Z with true by reflexivity. replace (0 =? CREATION)%Z with false by reflexivity.
  rewrite !scat_min_root.
  assert (A : scat_min (reaction_of [0; 0; 1; 2] [(-1)%Z; (-1)%Z; 1%Z; 1%Z]) 0 = 3).
  { unfold scat_min. cbn [reaction_of mass nth]. rewrite energy_rest by lra. destruct (Rle_dec _ 0); [lra|]. destruct (Rle_dec _ 0); [nra|].
    replace ((1 + 2 - 0) ^ 2 - 0 ^ 2) with (3 ^ 2) by ring. apply sqrt_pow2. lra. }
  assert (B : scat_min (reaction_of [0; 0; 1; 2] [(-1)%Z; (-1)%Z; 1%Z; 1%Z]) 2 = 1).
  { unfold scat_min. cbn [reaction_of mass nth]. rewrite energy_zero by lra. destruct (Rle_dec _ 0); [lra|]. destruct (Rle_dec _ 0); [nra|].
    replace ((1 + 2 - 2) ^ 2 - 0 ^ 2) with (1 ^ 2) by ring. apply sqrt_pow2. lra. }
  rewrite !A, !B.
  destruct (Rlt_dec (3 * 3) 1); [lra|]. cbn [fst snd Nat.eqb].
  destruct (Rlt_dec (3 * 1) (3 * 3)); [|lra]. destruct (Rlt_dec (3 * 1) 1); [lra|].
  cbn [set_nth]. intros E. injection E as E. lra.
Qed.
Print Assumptions C64_scattering_schedule_refuted.
Example C64_case : complete 3 [(1, 2); (0, 0); (1, 1)]%nat.
Proof. unfold complete. cbn. eapply perm_trans; [apply perm_swap|]. apply perm_skip. apply perm_swap. Qed.

(* ---------- C103 ---------- *)
Theorem C103_decay_limits_ordered : forall rs max_1 lim2 max_3 p0, masses_ok rs -> sides_are rs (-1) 1 1 1 ->
  mass (rs 1%nat) + mass (rs 2%nat) + mass (rs 3%nat) <= mass (rs 0%nat) -> 0 <= p0 ->
  exists lo hi, snd (p1_step rs max_3 (Some 0, max_1) p0) = Some (Some lo, Some hi) /\ lo <= hi /\
  forall p1, lo <= p1 <= hi -> exists l h, p2_limits rs (fst lim2) (snd lim2) max_3 p0 p1 = Some (Some l, Some h) /\ l <= h.
Proof.
  intros rs max_1 lim2 max_3 p0 Hm Hs Hth H0. destruct (decay_limits rs (Some 0, max_1) lim2 max_3 p0 Hm Hs Hth H0 eq_refl) as (lo & hi & E & L & X).
  exists lo, hi. split; [exact E|]. split; [exact L|]. intros p1 H1. destruct (X p1 H1) as (l & h & E2 & l' & h' & -> & -> & LH). eauto.
Qed.
Print Assumptions C103_decay_limits_ordered.
Theorem C103_scattering_limits_ordered : forall rs min_1 max_1 lim2 max_3 p0, masses_ok rs -> sides_are rs (-1) (-1) 1 1 -> 0 <= p0 ->
  p0 <> 0 \/ mass (rs 0%nat) <> 0 ->
  exists lo hi, snd (p1_step rs max_3 (min_1, Some max_1) p0) = Some (Some lo, Some hi) /\ 0 <= lo <= hi /\
  forall p1, lo <= p1 -> exists l h, p2_limits rs (fst lim2) (snd lim2) max_3 p0 p1 = Some (Some l, Some h) /\ l <= h.
Proof.
  intros rs min_1 max_1 lim2 max_3 p0 Hm Hs H0 Hp. destruct (scattering_limits rs (min_1, Some max_1) lim2 max_1 max_3 p0 Hm Hs H0 eq_refl Hp) as (lo & hi & E & L & X).
  exists lo, hi. split; [exact E|]. split; [exact L|]. intros p1 H1. destruct (X p1 H1) as (l & h & E2 & l' & h' & -> & -> & LH). eauto.
Qed.
Print Assumptions C103_scattering_limits_ordered.
Example C103_case : masses_ok (reaction_of [5; 1; 2; 1] [(-1)%Z; 1%Z; 1%Z; 1%Z]) /\ sides_are (reaction_of [5; 1; 2; 1] [(-1)%Z; 1%Z; 1%Z; 1%Z]) (-1) 1 1 1 /\ 1 + 2 + 1 <= 5.
Proof.
  split; [|split; [repeat split|lra]]. intros n. do 4 (destruct n as [|n]; [cbn; lra|]). destruct n; cbn; lra.
Qed.
