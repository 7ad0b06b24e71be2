From Coq Require Import Reals Lra Lia Psatz.
From Coquelicot Require Import Coquelicot.
From Verif Require Import Base FunctionalModel BoundsModel BoundsProofs BoundsProofs3 Bounds2Props Integrate3Model.
Open Scope R_scope.
Local Notation length := List.length.

Lemma energy_pos_of p m : 0 < p -> 0 < energy p m.
Proof. intros. pose proof (energy_ge p m ltac:(lra)). lra. Qed.
Lemma energy_of x m e : 0 <= e -> e ^ 2 = x ^ 2 + m ^ 2 -> energy x m = e.
Proof. intros He H. unfold energy. rewrite <- H. now apply sqrt_pow2. Qed.

Lemma is_derive_energy x m : 0 < energy x m -> is_derive (fun p => energy p m) x (x / energy x m).
Proof.
  intros H. unfold energy in *.
  assert (HP : 0 < x ^ 2 + m ^ 2).
  { destruct (Rlt_dec 0 (x ^ 2 + m ^ 2)); auto. exfalso. rewrite sqrt_neg_0 in H; lra. }
  auto_derive.
  - replace (x * (x * 1) + m * (m * 1)) with (x ^ 2 + m ^ 2) by ring. exact HP.
  - replace (x * (x * 1) + m * (m * 1)) with (x ^ 2 + m ^ 2) by ring. field. lra.
Qed.

(* the integral of the velocity is the energy *)
Lemma int_velocity m lo hi : 0 <= m -> 0 <= lo <= hi ->
  is_RInt (fun p => velocity p m) lo hi (energy hi m - energy lo m).
Proof.
  intros Hm H. unfold velocity. destruct (Req_EM_T m 0) as [->|N].
  - rewrite !energy_zero by lra. replace (hi - lo) with (scal (hi - lo) 1) by (unfold scal; simpl; unfold mult; simpl; ring).
    apply (@is_RInt_const R_CompleteNormedModule).
  - assert (P : forall p, 0 < energy p m). { intros p. pose proof (energy_ge_m p m). lra. }
    apply (is_RInt_derive (fun p => energy p m)).
    + intros x _. now apply is_derive_energy.
    + intros x _. apply (continuous_ext (fun p => p * / energy p m)); [reflexivity|].
      apply (continuous_mult (fun p => p) (fun p => / energy p m)); [apply continuous_id|].
      apply continuous_comp; [|].
      * apply (ex_derive_continuous (fun p => energy p m)). eexists. now apply is_derive_energy.
      * apply continuous_Rinv. specialize (P x). lra.
Qed.

(* the limits of the decay integral, in closed form *)
Definition Del (rs : nat -> participant) : R := mass (rs 0%nat) ^ 2 + mass (rs 1%nat) ^ 2 - mass (rs 2%nat) ^ 2.
Definition lam (rs : nat -> participant) : R :=
  (mass (rs 0%nat) ^ 2 - mass (rs 1%nat) ^ 2 - mass (rs 2%nat) ^ 2) ^ 2 - 4 * mass (rs 1%nat) ^ 2 * mass (rs 2%nat) ^ 2.
Lemma lam_alt rs : lam rs = Del rs ^ 2 - 4 * mass (rs 0%nat) ^ 2 * mass (rs 1%nat) ^ 2.
Proof. unfold lam, Del. ring. Qed.

Lemma decay_step rs max_2 st p0 : masses_ok rs -> sides3_are rs (-1) 1 1 ->
  mass (rs 1%nat) + mass (rs 2%nat) < mass (rs 0%nat) -> 0 < p0 ->
  let m0 := mass (rs 0%nat) in let E0 := energy p0 m0 in
  let a := (E0 * sqrt (lam rs) - Del rs * p0) / (2 * m0 ^ 2) in
  snd (p1_step3 rs max_2 st p0) = Some (Rmax a (- a), (E0 * sqrt (lam rs) + Del rs * p0) / (2 * m0 ^ 2)).
Proof.
  intros Hm Hs Hth H0. cbv zeta. unfold p1_step3. rewrite (side_sum3 _ _ _ _ Hs). destruct st as [x y].
  cbn [Z.add Z.eqb CREATION3 Z.opp Pos.add snd].
  pose proof (Hm 0%nat) as M0. pose proof (Hm 1%nat) as M1. pose proof (Hm 2%nat) as M2.
  assert (HL : 0 < lam rs) by (now apply kallen_pos).
  rewrite (bounds_3_value (masses_of rs) p0 (Del rs) 1), (bounds_3_value (masses_of rs) p0 (Del rs) (-1));
    try (unfold masses_of, Del; lra); try (unfold masses_of; rewrite <- lam_alt; lra).
  unfold masses_of. rewrite <- lam_alt.
  replace (1 * (p0 * (mass (rs 2%nat) ^ 2 - mass (rs 1%nat) ^ 2 - mass (rs 0%nat) ^ 2)) + energy p0 (mass (rs 0%nat)) * sqrt (lam rs))
    with (energy p0 (mass (rs 0%nat)) * sqrt (lam rs) - Del rs * p0) by (unfold Del; ring).
  replace (-1 * (p0 * (mass (rs 2%nat) ^ 2 - mass (rs 1%nat) ^ 2 - mass (rs 0%nat) ^ 2)) + energy p0 (mass (rs 0%nat)) * sqrt (lam rs))
    with (energy p0 (mass (rs 0%nat)) * sqrt (lam rs) + Del rs * p0) by (unfold Del; ring).
  reflexivity.
Qed.

Lemma Rmax_abs a : Rmax a (- a) = Rabs a.
Proof. unfold Rmax, Rabs. destruct (Rle_dec a (- a)), (Rcase_abs a); lra. Qed.

Lemma decay_energies rs p0 : masses_ok rs -> mass (rs 1%nat) + mass (rs 2%nat) < mass (rs 0%nat) -> 0 < p0 ->
  let m0 := mass (rs 0%nat) in let m1 := mass (rs 1%nat) in let E0 := energy p0 m0 in
  let a := (E0 * sqrt (lam rs) - Del rs * p0) / (2 * m0 ^ 2) in
  let lo := Rmax a (- a) in let hi := (E0 * sqrt (lam rs) + Del rs * p0) / (2 * m0 ^ 2) in
  0 <= lo /\ lo < hi /\
  energy lo m1 = (Del rs * E0 - p0 * sqrt (lam rs)) / (2 * m0 ^ 2) /\
  energy hi m1 = (Del rs * E0 + p0 * sqrt (lam rs)) / (2 * m0 ^ 2).
Proof.
  intros Hm Hth H0. cbv zeta.
  pose proof (Hm 0%nat) as M0. pose proof (Hm 1%nat) as M1. pose proof (Hm 2%nat) as M2.
  set (m0 := mass (rs 0%nat)) in *. set (m1 := mass (rs 1%nat)) in *. set (m2 := mass (rs 2%nat)) in *.
  assert (HL : 0 < lam rs) by (now apply kallen_pos).
  assert (HD : 0 < Del rs) by (unfold Del; fold m0 m1 m2; nra).
  pose proof (sqrt_lt_R0 _ HL) as HS. pose proof (pow2_sqrt _ (Rlt_le _ _ HL)) as HS2. pose proof (lam_alt rs) as HLA. fold m0 m1 in HLA.
  set (s := sqrt (lam rs)) in *. set (D := Del rs) in *.
  assert (HsD : s <= D) by nra.
  pose proof (energy_sq p0 m0) as HE2. pose proof (energy_nonneg p0 m0) as HE. set (E := energy p0 m0) in *.
  assert (HEp : p0 < E) by nra.
  assert (HM : 0 < 2 * m0 ^ 2) by nra.
  rewrite Rmax_abs. set (a := (E * s - D * p0) / (2 * m0 ^ 2)). set (hi := (E * s + D * p0) / (2 * m0 ^ 2)).
  assert (Ha : a * (2 * m0 ^ 2) = E * s - D * p0) by (unfold a; field; lra).
  assert (Hhi : hi * (2 * m0 ^ 2) = E * s + D * p0) by (unfold hi; field; lra).
  split; [apply Rabs_pos|]. split; [|split].
  - assert (a < hi) by nra. assert (- a < hi) by nra. now apply Rabs_def1; lra.
  - apply energy_of.
    + apply Rmult_le_pos; [nra|]. left. apply Rinv_0_lt_compat. lra.
    + rewrite pow2_abs. unfold a.
      replace (m1 ^ 2) with ((D ^ 2 - s ^ 2) / (4 * m0 ^ 2)) by (rewrite HS2, HLA; field; lra).
      replace (((D * E - p0 * s) / (2 * m0 ^ 2)) ^ 2) with ((D ^ 2 * E ^ 2 - 2 * D * E * p0 * s + p0 ^ 2 * s ^ 2) / (4 * m0 ^ 4)) by (field; lra).
      replace (((E * s - D * p0) / (2 * m0 ^ 2)) ^ 2) with ((E ^ 2 * s ^ 2 - 2 * D * E * p0 * s + D ^ 2 * p0 ^ 2) / (4 * m0 ^ 4)) by (field; lra).
      rewrite HE2. field. lra.
  - apply energy_of.
    + apply Rmult_le_pos; [nra|]. left. apply Rinv_0_lt_compat. lra.
    + unfold hi.
      replace (m1 ^ 2) with ((D ^ 2 - s ^ 2) / (4 * m0 ^ 2)) by (rewrite HS2, HLA; field; lra).
      replace (((D * E + p0 * s) / (2 * m0 ^ 2)) ^ 2) with ((D ^ 2 * E ^ 2 + 2 * D * E * p0 * s + p0 ^ 2 * s ^ 2) / (4 * m0 ^ 4)) by (field; lra).
      replace (((E * s + D * p0) / (2 * m0 ^ 2)) ^ 2) with ((E ^ 2 * s ^ 2 + 2 * D * E * p0 * s + D ^ 2 * p0 ^ 2) / (4 * m0 ^ 4)) by (field; lra).
      rewrite HE2. field. lra.
Qed.

(* strictly between the limits the triangle is not flat *)
Lemma strict_triangle_sq P p k2 : 0 < P -> 0 < p -> 0 <= k2 -> - (2 * P * p) < k2 - P ^ 2 - p ^ 2 < 2 * P * p -> strict_triangle P p (sqrt k2).
Proof.
  intros HP Hp Hk (A & B). pose proof (sqrt_pos k2) as H1. pose proof (pow2_sqrt k2 Hk) as H2. set (k := sqrt k2) in *.
  unfold strict_triangle. repeat split; nra.
Qed.

Lemma decay_inside rs p0 p1 : masses_ok rs -> sides3_are rs (-1) 1 1 ->
  mass (rs 1%nat) + mass (rs 2%nat) < mass (rs 0%nat) -> 0 < p0 -> 0 < p1 ->
  (2 * mass (rs 0%nat) ^ 2 * energy p1 (mass (rs 1%nat)) - Del rs * energy p0 (mass (rs 0%nat))) ^ 2 < p0 ^ 2 * lam rs ->
  exists p E, momenta3 rs p0 p1 = Some (p, E) /\ in_bounds3 p = 2.
Proof.
  intros Hm (S0 & S1 & S2) Hth H0 H1 HQ.
  pose proof (Hm 0%nat) as M0. pose proof (Hm 1%nat) as M1. pose proof (Hm 2%nat) as M2.
  unfold momenta3. cbv zeta. rewrite S0, S1, S2. unfold masses_of.
  set (m0 := mass (rs 0%nat)) in *. set (m1 := mass (rs 1%nat)) in *. set (m2 := mass (rs 2%nat)) in *.
  pose proof (energy_sq p0 m0) as HE2. pose proof (energy_nonneg p0 m0) as HE. pose proof (energy_ge p0 m0 ltac:(lra)) as HEp. set (E := energy p0 m0) in *.
  pose proof (energy_sq p1 m1) as He2. pose proof (energy_nonneg p1 m1) as He. set (e := energy p1 m1) in *.
  rewrite lam_alt in HQ. fold m0 m1 in HQ. set (D := Del rs) in *.
  assert (Hm0 : 0 < m0 ^ 2) by nra.
  (* (D - 2 E e)^2 < 4 p0^2 p1^2 *)
  assert (HX : (D - 2 * E * e) ^ 2 < 4 * p0 ^ 2 * p1 ^ 2).
  { apply (Rmult_lt_reg_l (m0 ^ 2)); [exact Hm0|].
    replace (p1 ^ 2) with (e ^ 2 - m1 ^ 2) by lra.
    assert (HR : (2 * m0 ^ 2 * e - D * E) ^ 2 - p0 ^ 2 * (D ^ 2 - 4 * m0 ^ 2 * m1 ^ 2)
            = m0 ^ 2 * (D - 2 * E * e) ^ 2 - m0 ^ 2 * (4 * p0 ^ 2 * (e ^ 2 - m1 ^ 2))).
    { replace (p0 ^ 2) with (E ^ 2 - m0 ^ 2) by lra. ring. }
    lra. }
  assert (HXX : (D - 2 * E * e) ^ 2 < (2 * p0 * p1) ^ 2) by lra.
  assert (HB : - (2 * p0 * p1) < D - 2 * E * e < 2 * p0 * p1).
  { pose proof (Rmult_lt_0_compat _ _ H0 H1). set (pp := p0 * p1) in *. replace (2 * p0 * p1) with (2 * pp) in * by (unfold pp; ring). split; nra. }
  assert (HEe : e < E).
  { destruct (Rlt_dec e E) as [|N]; auto. exfalso.
    assert (E <= e) by lra. unfold D, Del in HB. fold m0 m1 m2 in HB.
    (* (e - E)^2 < m2^2 + (p1-p0)^2, but (e-E)... *)
    destruct HB as (HB1 & HB2).
    assert (m2 ^ 2 - (e - E) ^ 2 + (p0 - p1) ^ 2 < 0 \/ True) by tauto.
    assert (HK : - (2 * p0 * p1) < m0 ^ 2 + m1 ^ 2 - m2 ^ 2 - 2 * E * e < 2 * p0 * p1) by (split; assumption).
    assert ((p1 - p0) ^ 2 <= (e - E) ^ 2) by nra.
    assert (p1 - p0 <= e - E) by nra. nra. }
  assert (HQ2 : m2 ^ 2 < (E - e) ^ 2).
  { pose proof (pow2_ge_0 (p0 - p1)). unfold D, Del in HB. fold m0 m1 m2 in HB.
    replace ((E - e) ^ 2) with (E ^ 2 + e ^ 2 - 2 * E * e) by ring. rewrite HE2, He2. lra. }
  assert (HM : m2 < E - e) by nra.
  replace ((0 + -1 * E + 1 * e) * - (1)) with (E - e) by ring.
  destruct (Rlt_dec (E - e) m2) as [|_]; [lra|].
  eexists _, _. split; [reflexivity|].
  assert (HT : strict_triangle p0 p1 (sqrt ((E - e) ^ 2 - m2 ^ 2))).
  { apply strict_triangle_sq; auto; [lra|]. unfold D, Del in HB. fold m0 m1 m2 in HB.
    replace ((E - e) ^ 2 - m2 ^ 2 - p0 ^ 2 - p1 ^ 2) with (m0 ^ 2 + m1 ^ 2 - m2 ^ 2 - 2 * E * e) by nra. lra. }
  match goal with |- in_bounds3 ?p = 2 => destruct (in_bounds3_value p) as [(_ & V)|[(V & _)|(V & _)]] end;
    cbv beta iota in *; try lra; try apply sqrt_pos; auto; exfalso; unfold strict_triangle in HT; unfold flat, triangle in V; lra.
Qed.

(* the value of a grid point of a decay, for a functional g along the line *)
Lemma decay_point rs k max_2 st p0 g J : masses_ok rs -> sides3_are rs (-1) 1 1 ->
  mass (rs 1%nat) + mass (rs 2%nat) < mass (rs 0%nat) -> 0 < p0 ->
  let m0 := mass (rs 0%nat) in let m1 := mass (rs 1%nat) in let E0 := energy p0 m0 in
  let a := (E0 * sqrt (lam rs) - Del rs * p0) / (2 * m0 ^ 2) in
  let lo := Rmax a (- a) in let hi := (E0 * sqrt (lam rs) + Del rs * p0) / (2 * m0 ^ 2) in
  (forall p1 p E, lo < p1 < hi -> momenta3 rs p0 p1 = Some (p, E) -> exists x0 x1 x2,
     occ (rs 0%nat) p0 = Ok x0 /\ occ (rs 1%nat) p1 = Ok x1 /\ occ (rs 2%nat) (p 2%nat) = Ok x2 /\
     functional k [plg (rs 0%nat); plg (rs 1%nat); plg (rs 2%nat)] [x0; x1; x2] = Ok (g p1)) ->
  is_RInt (fun p => velocity p m1 * g p) lo hi J ->
  point3_is rs k max_2 st p0 (2 * J / (p0 * E0)).
Proof.
  intros Hm Hs Hth H0. pose proof (decay_step rs max_2 st p0 Hm Hs Hth H0) as HS. pose proof (decay_energies rs p0 Hm Hth H0) as HE.
  cbv zeta in *. set (m0 := mass (rs 0%nat)) in *. set (m1 := mass (rs 1%nat)) in *. set (E0 := energy p0 m0) in *.
  set (a := (E0 * sqrt (lam rs) - Del rs * p0) / (2 * m0 ^ 2)) in *. set (lo := Rmax a (- a)) in *.
  set (hi := (E0 * sqrt (lam rs) + Del rs * p0) / (2 * m0 ^ 2)) in *. destruct HE as (Hlo & Hlh & Elo & Ehi).
  intros HF HJ. unfold point3_is. destruct (Req_EM_T p0 0) as [|_]; [lra|]. rewrite HS.
  exists (fun p1 => 2 * velocity p1 m1 * g p1 / (p0 * E0)). split.
  - rewrite Rmin_left, Rmax_right by lra. intros p1 Hp1.
    assert (HQ : (2 * m0 ^ 2 * energy p1 m1 - Del rs * E0) ^ 2 < p0 ^ 2 * lam rs).
    { assert (HL : 0 < lam rs) by (apply kallen_pos; [apply Hm|apply Hm|exact Hth]). pose proof (pow2_sqrt _ (Rlt_le _ _ HL)) as HS2.
      assert (Hm0 : 0 < m0) by (pose proof (Hm 1%nat) as X1; pose proof (Hm 2%nat) as X2; fold m1 in X1; lra).
      assert (HM : 0 < 2 * m0 ^ 2) by (pose proof (pow_lt m0 2 Hm0); lra).
      assert (A1 : energy lo m1 < energy p1 m1). { apply Rnot_le_lt. intros X. apply (energy_le_inv p1 lo) in X; lra. }
      assert (A2 : energy p1 m1 < energy hi m1). { apply Rnot_le_lt. intros X. apply (energy_le_inv hi p1) in X; lra. }
      rewrite Elo in A1. rewrite Ehi in A2.
      apply (Rmult_lt_compat_l _ _ _ HM) in A1. apply (Rmult_lt_compat_l _ _ _ HM) in A2.
      replace (2 * m0 ^ 2 * ((Del rs * E0 - p0 * sqrt (lam rs)) / (2 * m0 ^ 2))) with (Del rs * E0 - p0 * sqrt (lam rs)) in A1 by (field; lra).
      replace (2 * m0 ^ 2 * ((Del rs * E0 + p0 * sqrt (lam rs)) / (2 * m0 ^ 2))) with (Del rs * E0 + p0 * sqrt (lam rs)) in A2 by (field; lra).
      replace (p0 ^ 2 * lam rs) with ((p0 * sqrt (lam rs)) ^ 2) by (rewrite Rpow_mult_distr, HS2; reflexivity).
      set (s := p0 * sqrt (lam rs)) in *. set (x := 2 * m0 ^ 2 * energy p1 m1) in *. set (d := Del rs * E0) in *. nra. }
    destruct (decay_inside rs p0 p1 Hm Hs Hth H0 ltac:(lra) HQ) as (p & E & HM3 & HB).
    destruct (HF p1 p E Hp1 HM3) as (x0 & x1 & x2 & O0 & O1 & O2 & HFF).
    rewrite (C130_value3 rs k p0 p1 p E x0 x1 x2 (g p1) HM3 ltac:(lra) O0 O1 O2 HFF). rewrite HB. reflexivity.
  - apply (is_RInt_ext (fun p1 => scal (2 / (p0 * E0)) (velocity p1 m1 * g p1))).
    + intros x _. unfold scal; simpl; unfold mult; simpl. unfold Rdiv. ring.
    + replace (2 * J / (p0 * E0)) with (scal (2 / (p0 * E0)) J) by (unfold scal; simpl; unfold mult; simpl; unfold Rdiv; ring).
      now apply (@is_RInt_scal R_NormedModule).
Qed.

Lemma point3_unique rs k max_2 st p0 I J : point3_is rs k max_2 st p0 I -> point3_is rs k max_2 st p0 J -> I = J.
Proof.
  unfold point3_is. destruct (Req_EM_T p0 0).
  - destruct (p1_bounds_1 _); [|tauto]. intros A B. rewrite A in B. now apply (f_equal (fun r => match r with Ok x => x | Raise _ => I end)) in B.
  - destruct (snd _) as [[lo hi]|]; [|congruence]. intros (v & A & HI) (w & B & HJ).
    assert (HK : is_RInt w lo hi I).
    { apply (is_RInt_ext v); [|exact HI]. intros x Hx. specialize (A x Hx). rewrite (B x Hx) in A.
      symmetry. now apply (f_equal (fun r => match r with Ok x => x | Raise _ => w x end)) in A. }
    rewrite <- (is_RInt_unique _ _ _ _ HK). now apply is_RInt_unique.
Qed.

Lemma decay_point_constant rs k max_2 st p0 F : masses_ok rs -> sides3_are rs (-1) 1 1 ->
  mass (rs 1%nat) + mass (rs 2%nat) < mass (rs 0%nat) -> 0 < p0 ->
  (forall p1 p E, momenta3 rs p0 p1 = Some (p, E) -> exists x0 x1 x2,
     occ (rs 0%nat) p0 = Ok x0 /\ occ (rs 1%nat) p1 = Ok x1 /\ occ (rs 2%nat) (p 2%nat) = Ok x2 /\
     functional k [plg (rs 0%nat); plg (rs 1%nat); plg (rs 2%nat)] [x0; x1; x2] = Ok F) ->
  point3_is rs k max_2 st p0 (2 * sqrt (lam rs) * F / (mass (rs 0%nat) ^ 2 * energy p0 (mass (rs 0%nat)))).
Proof.
  intros Hm Hs Hth H0 HF. pose proof (decay_energies rs p0 Hm Hth H0) as HE. cbv zeta in HE. destruct HE as (Hlo & Hlh & Elo & Ehi).
  assert (HM0 : 0 < mass (rs 0%nat)) by (pose proof (Hm 1%nat); pose proof (Hm 2%nat); lra).
  pose proof (energy_pos_of p0 (mass (rs 0%nat)) H0) as HE0.
  match type of Elo with energy ?l _ = _ => set (lo := l) in * end. match type of Ehi with energy ?l _ = _ => set (hi := l) in * end.
  replace (2 * sqrt (lam rs) * F / (mass (rs 0%nat) ^ 2 * energy p0 (mass (rs 0%nat))))
    with (2 * ((energy hi (mass (rs 1%nat)) - energy lo (mass (rs 1%nat))) * F) / (p0 * energy p0 (mass (rs 0%nat))))
    by (rewrite Elo, Ehi; field; lra).
  apply (decay_point rs k max_2 st p0 (fun _ => F)); auto.
  - intros p1 p E _ HM. eauto.
  - fold lo hi. apply (is_RInt_ext (fun p => scal F (velocity p (mass (rs 1%nat))))).
    + intros x _. unfold scal; simpl; unfold mult; simpl. ring.
    + replace ((energy hi (mass (rs 1%nat)) - energy lo (mass (rs 1%nat))) * F) with (scal F (energy hi (mass (rs 1%nat)) - energy lo (mass (rs 1%nat))))
        by (unfold scal; simpl; unfold mult; simpl; ring).
      apply (@is_RInt_scal R_NormedModule). apply int_velocity; [apply Hm|lra].
Qed.

(* the momentum of the products in the rest frame *)
Lemma pstar_value m q : (forall n, 0 <= m n) -> 0 < m 0%nat -> m 1%nat + m 2%nat < m 0%nat -> 0 <= q ->
  energy q (m 1%nat) + energy q (m 2%nat) = m 0%nat -> p1_bounds_1 m = Some q /\ 0 < q.
Proof.
  intros Hm H0 Hth Hq HE. destruct (rest3 m Hm H0 (or_introl Hth)) as (p & HP & Hp & HU).
  destruct (HU q Hq) as (A & _). assert (q = p) as -> by (apply A; auto). auto.
Qed.

Lemma rest_point rs k max_2 st F : masses_ok rs -> sides3_are rs (-1) 1 1 ->
  mass (rs 1%nat) + mass (rs 2%nat) < mass (rs 0%nat) -> forall q, 0 <= q ->
  energy q (mass (rs 1%nat)) + energy q (mass (rs 2%nat)) = mass (rs 0%nat) ->
  (exists x0 x1 x2,
     occ (rs 0%nat) 0 = Ok x0 /\ occ (rs 1%nat) q = Ok x1 /\ occ (rs 2%nat) q = Ok x2 /\
     functional k [plg (rs 0%nat); plg (rs 1%nat); plg (rs 2%nat)] [x0; x1; x2] = Ok F) ->
  point3_is rs k max_2 st 0 (q * F).
Proof.
  intros Hm (S0 & S1 & S2) Hth q Hq HE (x0 & x1 & x2 & O0 & O1 & O2 & HF).
  pose proof (Hm 0%nat) as M0. pose proof (Hm 1%nat) as M1. pose proof (Hm 2%nat) as M2.
  destruct (pstar_value (masses_of rs) q Hm ltac:(unfold masses_of; lra) Hth Hq HE) as (HP & Hpos).
  unfold point3_is. destruct (Req_EM_T 0 0) as [_|]; [|lra]. rewrite HP.
  unfold integrand3, momenta3. cbv zeta. rewrite S0, S1, S2. unfold masses_of. rewrite energy_rest by auto.
  replace ((0 + -1 * mass (rs 0%nat) + 1 * energy q (mass (rs 1%nat))) * - (1)) with (energy q (mass (rs 2%nat))) by lra.
  destruct (Rlt_dec _ _) as [X|_]; [pose proof (energy_ge_m q (mass (rs 2%nat))); lra|].
  destruct (Req_EM_T 0 0) as [_|]; [|lra]. destruct (Req_EM_T q 0) as [|_]; [lra|].
  assert (HS : sqrt (energy q (mass (rs 2%nat)) ^ 2 - mass (rs 2%nat) ^ 2) = q).
  { rewrite energy_sq. replace (q ^ 2 + mass (rs 2%nat) ^ 2 - mass (rs 2%nat) ^ 2) with (q ^ 2) by ring. now apply sqrt_pow2. }
  cbn [occupations]. rewrite O0. cbn [rbind]. rewrite O1. cbn [rbind]. rewrite HS, O2. cbn [rbind legs map seq]. rewrite HF. reflexivity.
Qed.
