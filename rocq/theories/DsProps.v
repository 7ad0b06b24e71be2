(* C55-C60, C102: the kinematic kernels D1, D2, D3 and their zero-momentum forms.
   k ranges over the modulus of the total momentum of a pair. *)
From Coq Require Import Reals Lra Psatz Permutation.
From Coquelicot Require Import Coquelicot.
From Verif Require Import Base DsModel DsProofs DsLimits.
Open Scope R_scope.

(* the specification: the interval allowed by the two triangles of side k *)
Example allowed_interval : klo 3 1 2 1 = 2 /\ khi 3 1 2 1 = 3 /\ kend 3 1 2 1 = 3.
Proof.
  unfold kend, klo, khi. rewrite !Rabs_pos_eq by lra. rewrite Rmax_left by lra. rewrite Rmin_right by lra. rewrite Rmax_right by lra. lra.
Qed.
Theorem C55_interval_meaning : forall a b c d k, klo a b c d <= k <= khi a b c d <->
  (Rabs (a - b) <= k <= a + b) /\ (Rabs (c - d) <= k <= c + d).
Proof.
  intros a b c d k. unfold klo, khi. split.
  - intros [H1 H2]. pose proof (Rmax_l (Rabs (a - b)) (Rabs (c - d))). pose proof (Rmax_r (Rabs (a - b)) (Rabs (c - d))).
    pose proof (Rmin_l (a + b) (c + d)). pose proof (Rmin_r (a + b) (c + d)). lra.
  - intros [H1 H2]. split; [apply Rmax_lub|apply Rmin_glb]; lra.
Qed.
Print Assumptions C55_interval_meaning.

(* C55 *)
Theorem C55_phase_space_length : forall a b c d, 0 <= a -> 0 <= b -> 0 <= c -> 0 <= d ->
  D1 a b c d = Rmax 0 (khi a b c d - klo a b c d) / 2.
Proof.
  intros. rewrite D1_value by auto. unfold kend. f_equal.
  destruct (Rle_dec (khi a b c d) (klo a b c d)); [rewrite !Rmax_left by lra; lra|rewrite !Rmax_right by lra; lra].
Qed.
Print Assumptions C55_phase_space_length.
Theorem C55_symmetric : forall a b c d w x y z, Permutation [a; b; c; d] [w; x; y; z] -> D1 a b c d = D1 w x y z.
Proof. exact D1_perm. Qed.
Print Assumptions C55_symmetric.
Theorem C55_nonnegative : forall a b c d, 0 <= a -> 0 <= b -> 0 <= c -> 0 <= d -> 0 <= D1 a b c d.
Proof. intros. rewrite D1_value by auto. pose proof (k_order a b c d). lra. Qed.
Print Assumptions C55_nonnegative.
Theorem C55_positive_iff_polygon : forall a b c d, 0 <= a -> 0 <= b -> 0 <= c -> 0 <= d ->
  (0 < D1 a b c d <-> (a < b + c + d /\ b < c + d + a /\ c < d + a + b /\ d < a + b + c) /\ 0 < a /\ 0 < b /\ 0 < c /\ 0 < d).
Proof. exact D1_pos_iff. Qed.
Print Assumptions C55_positive_iff_polygon.
Example C55_case : D1 3 1 2 1 = 1 / 2 /\ 0 < D1 3 1 2 1.
Proof.
  destruct allowed_interval as (H1 & H2 & _).
  rewrite (C55_phase_space_length 3 1 2 1), H1, H2 by lra. rewrite Rmax_right by lra. lra.
Qed.

(* C56 *)
Theorem C56_angular_integral : forall a b c d, 0 <= a -> 0 <= b -> 0 <= c -> 0 <= d ->
  is_RInt (fun k => 1 / 2 * ((c ^ 2 + d ^ 2 - k ^ 2) / 2)) (klo a b c d) (Rmax (klo a b c d) (khi a b c d)) (D2 a b c d).
Proof. intros. rewrite D2_value by auto. apply int2. Qed.
Print Assumptions C56_angular_integral.
Theorem C56_symmetric_in_pairs : forall a b c d, 0 <= a -> 0 <= b -> 0 <= c -> 0 <= d ->
  D2 a b c d = D2 b a c d /\ D2 a b c d = D2 a b d c.
Proof. intros. split; [now apply D2_swap12|now apply D2_swap34]. Qed.
Print Assumptions C56_symmetric_in_pairs.
(* the piecewise form of the comment Ds.cpp:67-108 *)
Theorem C56_documented_form : forall a b c d, 0 <= b <= a -> 0 <= d <= c -> D2 a b c d = D2_doc a b c d.
Proof.
  intros a b c d H1 H2. rewrite D2_doc_ordered by auto. rewrite D2_value by lra. now rewrite D2_ordered.
Qed.
Print Assumptions C56_documented_form.
Theorem C56_vanishes_outside : forall a b c d, 0 <= a -> 0 <= b -> 0 <= c -> 0 <= d ->
  a > b + c + d \/ b > c + d + a \/ c > d + a + b \/ d > a + b + c -> D2 a b c d = 0.
Proof.
  intros a b c d Ha Hb Hc Hd H. rewrite D2_value by auto.
  replace (kend a b c d) with (klo a b c d); [lra|].
  unfold kend. symmetry. apply Rmax_left. unfold klo, khi.
  pose proof (Rle_abs (a - b)). pose proof (Rle_abs (c - d)).
  pose proof (Rle_abs (- (a - b))). pose proof (Rle_abs (- (c - d))). rewrite Rabs_Ropp in *.
  destruct H as [H|[H|[H|H]]].
  - eapply Rle_trans; [apply Rmin_r|]. eapply Rle_trans; [|apply Rmax_l]. lra.
  - eapply Rle_trans; [apply Rmin_r|]. eapply Rle_trans; [|apply Rmax_l]. lra.
  - eapply Rle_trans; [apply Rmin_l|]. eapply Rle_trans; [|apply Rmax_r]. lra.
  - eapply Rle_trans; [apply Rmin_l|]. eapply Rle_trans; [|apply Rmax_r]. lra.
Qed.
Print Assumptions C56_vanishes_outside.
Example C56_case : D2 3 1 2 1 = - 1 / 3.
Proof.
  rewrite D2_value by lra. destruct allowed_interval as (-> & _ & ->). unfold cub. lra.
Qed.

(* C57 *)
Theorem C57_angular_integral : forall a b c d, 0 <= a -> 0 <= b -> 0 <= c -> 0 <= d ->
  is_RInt (fun k => 1 / 2 * ((a ^ 2 + b ^ 2 - k ^ 2) / 2) * ((c ^ 2 + d ^ 2 - k ^ 2) / 2))
    (klo a b c d) (Rmax (klo a b c d) (khi a b c d)) (D3 a b c d).
Proof. intros. rewrite D3_value by auto. apply int3. Qed.
Print Assumptions C57_angular_integral.
Theorem C57_symmetric : forall a b c d w x y z, 0 <= a -> 0 <= b -> 0 <= c -> 0 <= d ->
  Permutation [a; b; c; d] [w; x; y; z] -> D3 a b c d = D3 w x y z.
Proof. exact D3_perm. Qed.
Print Assumptions C57_symmetric.
Example C57_case : D3 3 1 2 1 = - 7 / 20 /\ D3 1 2 1 3 = D3 3 1 2 1.
Proof.
  split.
  - rewrite D3_value by lra. destruct allowed_interval as (-> & _ & ->). unfold qui. lra.
  - apply C57_symmetric; try lra. eapply perm_trans; [apply (Permutation_app_comm [1; 2; 1] [3])|]. apply perm_skip, Permutation_refl.
Qed.

(* C58: E_i >= p_i; the sides only enter through signs *)
Theorem C58_kernel_nonnegative : forall p E m K1 o sides, is_order o -> 0 <= K1 ->
  (forall n, (n < 4)%nat -> 0 <= p n <= E n) -> (forall n, (n < 4)%nat -> sides n = 1%Z \/ sides n = (-1)%Z) ->
  0 <= Dfun p E m K1 0 o sides.
Proof.
  intros p E m K1 [[[i j] k] l] sides Ho HK Hp Hs. rewrite Dfun_K1 by (auto; intros; now apply Hp).
  unfold is_order in Ho. destruct (order_lt _ _ _ _ Ho) as (Hi & Hj & Hk & Hl).
  apply Rmult_le_pos; [exact HK|]. apply K1_nonneg; auto; apply pm1_mul; now apply Hs.
Qed.
Print Assumptions C58_kernel_nonnegative.
Example C58_case : exists p E sides, is_order (0, 2, 1, 3)%nat /\ (forall n, (n < 4)%nat -> 0 <= p n <= E n) /\
  (forall n, (n < 4)%nat -> sides n = 1%Z \/ sides n = (-1)%Z) /\ 0 < Dfun p E (fun _ => 1) 1 0 (0, 2, 1, 3)%nat sides.
Proof.
  exists (fun _ => 1), (fun _ => 2), (fun n => if (n <? 2)%nat then (-1)%Z else 1%Z).
  split; [apply perm_skip, perm_swap|]. split; [intros; lra|]. split; [intros n _; destruct (n <? 2)%nat; auto|].
  rewrite Dfun_K1; [|apply perm_skip, perm_swap|intros; lra]. cbn.
  rewrite D1_value, D3_value, !D2_value by lra. unfold kend, klo, khi, cub, qui. rewrite Rminus_eq_0, Rabs_R0, (Rmax_left 0 0), (Rmin_left (1 + 1)), (Rmax_right 0 (1 + 1)) by lra. lra.
Qed.

(* C59: one-sided limits as the momentum of the first particle goes to zero *)
Theorem C59_D1_limit : forall b c d, 0 <= b -> 0 <= c -> 0 <= d ->
  forall eps, 0 < eps -> exists delta, 0 < delta /\ forall q, 0 < q < delta -> Rabs (D1 q b c d / q - Db1 b c d) < eps.
Proof. exact D1_lim. Qed.
Print Assumptions C59_D1_limit.
Theorem C59_D2_limit : forall b c d, 0 <= b -> 0 <= c -> 0 <= d ->
  forall eps, 0 < eps -> exists delta, 0 < delta /\ forall q, 0 < q < delta -> Rabs (D2 q b c d / q - Db2 b c d) < eps.
Proof. exact D2_lim. Qed.
Print Assumptions C59_D2_limit.
(* the whole kernel of a massive particle *)
Theorem C59_kernel_limit : forall p E m K1 K2 o sides, is_order o -> (forall n, (n < 4)%nat -> 0 <= p n) -> 0 < m 0%nat ->
  forall eps, 0 < eps -> exists delta, 0 < delta /\ forall q, 0 < q < delta ->
  let E0 := sqrt (q * q + m 0%nat * m 0%nat) in
  Rabs (Dfun (upd0 p q) (upd0 E E0) m K1 K2 o sides / (q * E0) - Db (upd0 p 0) (upd0 E (m 0%nat)) m K1 K2 o sides) < eps.
Proof. intros p E m K1 K2 [[[i j] k] l] sides. exact (kernel_lim p E m K1 K2 i j k l sides). Qed.
Print Assumptions C59_kernel_limit.
Example C59_case : Db1 2 1 2 = 1 /\ Db2 2 1 2 = 1 / 2.
Proof.
  split.
  - unfold Db1, sort3. destruct (Rlt_dec 2 1); [lra|]. destruct (Rlt_dec 1 2); [|lra]. destruct (Rlt_dec 2 2); [lra|]. sg. lra.
  - unfold Db2. destruct (Rlt_dec 1 2); [|lra]. unfold Db2_body. sg. rewrite !Rabs_pos_eq by lra. lra.
Qed.

(* C60: the mass term of a massless first particle is not that limit *)
Theorem C60_massless_mass_term_refuted : exists p E m K2 o sides, is_order o /\ (forall n, (n < 4)%nat -> 0 <= p n) /\ m 0%nat = 0 /\
  (forall q, 0 < q -> Dfun (upd0 p q) (upd0 E q) m 0 K2 o sides / (q * q) = 0) /\
  0 < Db (upd0 p 0) (upd0 E 0) m 0 K2 o sides.
Proof.
  exists (fun _ => 1), (fun n => if (n =? 1)%nat then sqrt 2 else 1), (fun n => if (n =? 1)%nat then 1 else 0), 1, (0, 1, 2, 3)%nat,
    (fun n => if (n <? 2)%nat then (-1)%Z else 1%Z).
  split; [apply Permutation_refl|]. split; [intros; lra|]. split; [reflexivity|]. split.
  - intros q Hq. rewrite Dfun_K2 by apply Permutation_refl. cbn. field. lra.
  - rewrite Db_K2. cbn. unfold Db1, sort3, Db2. repeat match goal with |- context [Rlt_dec 1 1] => destruct (Rlt_dec 1 1); [lra|] end. sg. unfold Db2_body. sg. rewrite !Rabs_pos_eq by lra. lra.
Qed.
Print Assumptions C60_massless_mass_term_refuted.
(* the discrepancy in general: the limit is zero, the kernel used is K2 m_j (...) *)
Theorem C60_massless_mass_term : forall p E m K2 j k l sides, is_order (0, j, k, l)%nat -> m 0%nat = 0 ->
  (forall q, 0 < q -> Dfun (upd0 p q) (upd0 E q) m 0 K2 (0, j, k, l)%nat sides / (q * q) = 0) /\
  Db (upd0 p 0) (upd0 E 0) m 0 K2 (0, j, k, l)%nat sides =
  K2 * m j * (E k * E l * Db1 (p 1%nat) (p 2%nat) (p 3%nat) + IZR (sides k * sides l) * Db2 (p j) (p k) (p l)).
Proof.
  intros p E m K2 j k l sides Ho Hm. split.
  - intros q Hq. rewrite Dfun_K2 by auto. rewrite Hm. field. lra.
  - rewrite Db_K2. cbn [Nat.mul Nat.eqb Nat.add upd0].
    unfold is_order in Ho. pose proof (order_nodup _ _ _ _ Ho) as HN. inversion HN as [|? ? H1 _]; subst. cbn in H1.
    rewrite !upd0_S by (intros ->; tauto). ring.
Qed.
Print Assumptions C60_massless_mass_term.

(* C102: a massless first particle outside the mass term *)
Theorem C102_massless_kernel_limit : forall p E m K1 K2 i j k l sides, is_order (i, j, k, l) -> (forall n, (n < 4)%nat -> 0 <= p n) ->
  p 1%nat <> p 2%nat + p 3%nat /\ p 2%nat <> p 3%nat + p 1%nat /\ p 3%nat <> p 1%nat + p 2%nat ->
  (i <> 0%nat /\ j <> 0%nat) \/ K2 = 0 ->
  forall eps, 0 < eps -> exists delta, 0 < delta /\ forall q, 0 < q < delta ->
  Rabs (Dfun (upd0 p q) (upd0 E q) m K1 K2 (i, j, k, l) sides / (q * q) - Db (upd0 p 0) (upd0 E 0) m K1 K2 (i, j, k, l) sides) < eps.
Proof. exact kernel_lim_massless. Qed.
Print Assumptions C102_massless_kernel_limit.
Example C102_case : is_order (1, 2, 0, 3)%nat /\ 2 <> 1 + 2 /\ 1 <> 2 + 2 /\ 0 < Db (upd0 (fun n => if (n =? 2)%nat then 1 else 2) 0) (upd0 (fun _ => 2) 0) (fun _ => 1) 1 1 (1, 2, 0, 3)%nat (fun _ => 1%Z).
Proof.
  split; [|split; [lra|split; [lra|]]].
  - unfold is_order. eapply perm_trans; [apply (Permutation_app_comm [1; 2]%nat [0; 3]%nat)|]. cbn. apply perm_skip.
    eapply perm_trans; [apply perm_swap|]. apply perm_skip. apply perm_swap.
  - rewrite Db_split, Db_K1, Db_K2. cbn. destruct C59_case as (-> & _).
    unfold Db2. destruct (Rlt_dec 2 1); [lra|]. unfold Db2_body. sg. rewrite !Rabs_pos_eq by lra. lra.
Qed.
