From Coq Require Import Reals Lra Psatz Permutation.
From Verif Require Import Base FunctionalModel DsModel DsProofs DsLimits BoundsModel BoundsProofs.
Open Scope R_scope.

(* ---------- three particles ---------- *)
Definition E2_of (rs : nat -> participant) (p0 p1 : R) : R :=
  let s n := IZR (sides_of rs n) in
  (0 + s 0%nat * energy p0 (mass (rs 0%nat)) + s 1%nat * energy p1 (mass (rs 1%nat))) * - s 2%nat.
Definition p2_of (rs : nat -> participant) (p0 p1 : R) : R := sqrt (E2_of rs p0 p1 ^ 2 - mass (rs 2%nat) ^ 2).
(* energy and momentum conservation have a solution *)
Definition allowed3 (rs : nat -> participant) (p0 p1 : R) : Prop :=
  mass (rs 2%nat) <= E2_of rs p0 p1 /\ triangle p0 p1 (p2_of rs p0 p1).
Definition sides3_are (rs : nat -> participant) (a b c : Z) : Prop :=
  sides_of rs 0 = a /\ sides_of rs 1 = b /\ sides_of rs 2 = c.
Lemma side_sum3 rs a b c : sides3_are rs a b c -> side_sum rs 3 = (a + b + c)%Z.
Proof. intros (A & B & C). unfold side_sum. cbn [seq fold_left]. rewrite A, B, C. ring. Qed.

Lemma support3 rs k p0 p1 : 0 <= p0 -> 0 <= p1 -> p0 <> 0 -> integrand3 rs k p0 p1 <> Ok 0 -> allowed3 rs p0 p1.
Proof.
  intros H0 H1 Np HN. unfold integrand3, momenta3 in HN. cbv zeta in HN. unfold masses_of in HN.
  change ((0 + IZR (sides_of rs 0) * energy p0 (mass (rs 0%nat)) + IZR (sides_of rs 1) * energy p1 (mass (rs 1%nat))) * - IZR (sides_of rs 2)) with (E2_of rs p0 p1) in HN.
  destruct (Rlt_dec (E2_of rs p0 p1) (mass (rs 2%nat))) as [X|X]; [congruence|].
  destruct (Req_EM_T p0 0) as [|_]; [contradiction|].
  match type of HN with context [in_bounds3 ?f] => set (p := f) in * end.
  destruct (in_bounds3_value p) as [(V & _)|[(V & Q1 & Q2 & Q3 & _)|(_ & V)]]; try (unfold p; auto using sqrt_pos).
  - split; [lra|]. unfold strict_triangle, p in V. cbv beta iota in V. unfold triangle, p2_of. lra.
  - split; [lra|]. unfold flat, p in V. unfold p in Q1, Q2, Q3. cbv beta iota in V, Q1, Q2, Q3. unfold triangle, p2_of. lra.
  - rewrite V in HN. exfalso. apply HN. destruct (Req_EM_T _ 0) as [|N]; [reflexivity|]. exfalso. apply N. unfold Rdiv. ring.
Qed.

Lemma kallen_pos a b c : 0 <= b -> 0 <= c -> b + c < a -> 0 < (a ^ 2 - b ^ 2 - c ^ 2) ^ 2 - 4 * b ^ 2 * c ^ 2.
Proof.
  intros Hb Hc H. replace ((a ^ 2 - b ^ 2 - c ^ 2) ^ 2 - 4 * b ^ 2 * c ^ 2) with ((a ^ 2 - (b - c) ^ 2) * (a ^ 2 - (b + c) ^ 2)) by ring.
  apply Rmult_lt_0_compat; nra.
Qed.
Lemma le_div_r a b c : 0 < c -> (a <= b / c <-> a * c <= b).
Proof.
  intros Hc. split; intros H.
  - apply Rmult_le_compat_r with (r := c) in H; [|lra]. unfold Rdiv in H. rewrite Rmult_assoc, Rinv_l in H by lra. lra.
  - apply Rmult_le_reg_r with c; [lra|]. unfold Rdiv. rewrite Rmult_assoc, Rinv_l by lra. lra.
Qed.
Lemma div_le_l a b c : 0 < c -> (b / c <= a <-> b <= a * c).
Proof.
  intros Hc. split; intros H.
  - apply Rmult_le_compat_r with (r := c) in H; [|lra]. unfold Rdiv in H. rewrite Rmult_assoc, Rinv_l in H by lra. lra.
  - apply Rmult_le_reg_r with c; [lra|]. unfold Rdiv. rewrite Rmult_assoc, Rinv_l by lra. lra.
Qed.
Lemma max_opp_le v p : Rmax v (- v) <= p <-> v <= p /\ - v <= p.
Proof.
  pose proof (Rmax_l v (- v)). pose proof (Rmax_r v (- v)). split; [lra|]. intros. apply Rmax_lub; lra.
Qed.
(* the limits |(-AP + E sqrt L)/(2 s)|, (AP + E sqrt L)/(2 s) are exact *)
Lemma two_body_limits A E P p e mu s : 0 <= P -> 0 <= p -> 0 <= e -> 0 <= E -> e ^ 2 = p ^ 2 + mu ^ 2 -> s = E ^ 2 - P ^ 2 -> 0 < s ->
  0 <= A -> 0 <= A ^ 2 - 4 * s * mu ^ 2 ->
  let r := E * sqrt (A ^ 2 - 4 * s * mu ^ 2) in
  let v := (- (A * P) + r) / (2 * s) in
  (Rmax v (- v) <= p <= (A * P + r) / (2 * s) <-> - (2 * P * p) <= A - 2 * E * e <= 2 * P * p).
Proof.
  intros HP Hp He HE He2 Hs Hs0 HA HL r v. rewrite max_opp_le, le_div_r by lra. unfold v.
  replace (- ((- (A * P) + r) / (2 * s))) with ((A * P - r) / (2 * s)) by (field; lra).
  rewrite !div_le_l by lra. split.
  - intros ((B1 & B2) & B3). apply (two_body_bwd A E P p e mu s); auto; fold r; lra.
  - intros H. destruct (two_body_fwd A E P p e mu s HP Hp He HE He2 Hs Hs0 H) as (_ & _ & (B1 & B2) & B3). fold r in B1, B2, B3. lra.
Qed.

Lemma bounds_3_value m p0 A s1 : 0 <= p0 -> 0 < m 0%nat ->
  A ^ 2 = (m 0%nat ^ 2 + m 1%nat ^ 2 - m 2%nat ^ 2) ^ 2 -> 0 <= A ^ 2 - 4 * m 0%nat ^ 2 * m 1%nat ^ 2 ->
  p1_bounds_3 m p0 s1 1 = (s1 * (p0 * (m 2%nat ^ 2 - m 1%nat ^ 2 - m 0%nat ^ 2)) + energy p0 (m 0%nat) * sqrt (A ^ 2 - 4 * m 0%nat ^ 2 * m 1%nat ^ 2)) / (2 * m 0%nat ^ 2).
Proof.
  intros H0 Hm HA HL. unfold p1_bounds_3. cbv beta iota zeta.
  replace ((p0 ^ 2 + m 0%nat ^ 2) * (m 1%nat ^ 4 + (m 2%nat ^ 2 - m 0%nat ^ 2) ^ 2 - 2 * m 1%nat ^ 2 * (m 2%nat ^ 2 + m 0%nat ^ 2)))
    with (energy p0 (m 0%nat) ^ 2 * (A ^ 2 - 4 * m 0%nat ^ 2 * m 1%nat ^ 2)) by (rewrite HA, energy_sq; ring).
  destruct (Rlt_dec _ 0) as [X|X]; [exfalso; pose proof (pow2_ge_0 (energy p0 (m 0%nat))); nra|].
  rewrite sqrt_mult_sq by (auto using energy_nonneg). now rewrite Rmult_1_l.
Qed.

Lemma decay3_exact rs max_2 st p0 : masses_ok rs -> sides3_are rs (-1) 1 1 ->
  mass (rs 1%nat) + mass (rs 2%nat) < mass (rs 0%nat) -> 0 < p0 ->
  exists lo hi, snd (p1_step3 rs max_2 st p0) = Some (lo, hi) /\ forall p1, 0 <= p1 -> (lo <= p1 <= hi <-> allowed3 rs p0 p1).
Proof.
  intros Hm Hs Hth H0. unfold p1_step3. rewrite (side_sum3 _ _ _ _ Hs). destruct Hs as (S0 & S1 & S2).
  destruct st as [a b]. cbn [Z.add Z.eqb CREATION3 Z.opp Pos.add]. 
  pose proof (Hm 0%nat) as M0. pose proof (Hm 1%nat) as M1. pose proof (Hm 2%nat) as M2.
  assert (P0 : 0 < mass (rs 0%nat)) by lra.
  set (A := mass (rs 0%nat) ^ 2 + mass (rs 1%nat) ^ 2 - mass (rs 2%nat) ^ 2).
  assert (HA : 0 <= A) by (unfold A; nra).
  assert (HL : 0 <= A ^ 2 - 4 * mass (rs 0%nat) ^ 2 * mass (rs 1%nat) ^ 2).
  { replace (A ^ 2 - 4 * mass (rs 0%nat) ^ 2 * mass (rs 1%nat) ^ 2)
      with ((mass (rs 0%nat) ^ 2 - mass (rs 1%nat) ^ 2 - mass (rs 2%nat) ^ 2) ^ 2 - 4 * mass (rs 1%nat) ^ 2 * mass (rs 2%nat) ^ 2) by (unfold A; ring).
    left. now apply kallen_pos. }
  rewrite (bounds_3_value (masses_of rs) p0 A 1), (bounds_3_value (masses_of rs) p0 A (-1)) by (unfold masses_of, A; auto; lra).
  unfold masses_of.
  eexists _, _. split; [cbn [snd]; reflexivity|]. intros p1 H1.
  set (E := energy p0 (mass (rs 0%nat))). set (e := energy p1 (mass (rs 1%nat))).
  assert (HE2 : E ^ 2 = p0 ^ 2 + mass (rs 0%nat) ^ 2) by apply energy_sq. assert (He2 : e ^ 2 = p1 ^ 2 + mass (rs 1%nat) ^ 2) by apply energy_sq.
  assert (HEn : 0 <= E) by apply energy_nonneg. assert (Hen : 0 <= e) by apply energy_nonneg.
  assert (HS : mass (rs 0%nat) ^ 2 = E ^ 2 - p0 ^ 2) by lra. assert (Hs0 : 0 < mass (rs 0%nat) ^ 2) by nra.
  pose proof (two_body_limits A E p0 p1 e (mass (rs 1%nat)) _ (Rlt_le _ _ H0) H1 Hen HEn He2 HS Hs0 HA HL) as TB. cbv zeta in TB.
  replace (1 * (p0 * (mass (rs 2%nat) ^ 2 - mass (rs 1%nat) ^ 2 - mass (rs 0%nat) ^ 2))) with (- (A * p0)) by (unfold A; ring).
  replace (-1 * (p0 * (mass (rs 2%nat) ^ 2 - mass (rs 1%nat) ^ 2 - mass (rs 0%nat) ^ 2))) with (A * p0) by (unfold A; ring).
  rewrite TB. clear TB. unfold allowed3, p2_of.
  assert (HEv : E2_of rs p0 p1 = E - e) by (unfold E2_of; rewrite S0, S1, S2; unfold E, e; ring).
  rewrite HEv. split.
  - intros HK.
    assert (HEe : e <= E).
    { destruct (Rle_dec e E) as [|N]; auto. exfalso.
      assert (E <= e) by lra. assert (p0 <= E) by (apply energy_ge; lra). unfold A in HK.
      assert ((p1 - p0) ^ 2 <= (e - E) ^ 2) by nra.
      assert (p1 - p0 <= e - E) by nra. nra. }
    assert (HQ : mass (rs 2%nat) ^ 2 <= (E - e) ^ 2).
    { pose proof (pow2_ge_0 (p0 - p1)). unfold A in HK.
      replace ((E - e) ^ 2) with (E ^ 2 + e ^ 2 - 2 * E * e) by ring. rewrite HE2, He2. lra. }
    assert (HM : mass (rs 2%nat) <= E - e) by (clear - HQ HEe M2; nra).
    split; [exact HM|]. apply triangle_sq; auto; [lra|nra|]. unfold A in HK. nra.
  - intros (HM & HT). apply triangle_sq in HT; auto; [|lra|nra]. unfold A. nra.
Qed.

Lemma root_le_iff p m e h : 0 <= p -> root_or None e m = Some h -> (p <= h <-> energy p m <= e).
Proof.
  intros Hp. unfold root_or. destruct (Rle_dec e 0); [discriminate|]. destruct (Rle_dec (e ^ 2 - m ^ 2) 0) as [|N]; [discriminate|].
  intros HS. assert (h = sqrt (e ^ 2 - m ^ 2)) as -> by congruence. pose proof (energy_sq p m). pose proof (energy_nonneg p m). split; intros H1.
  - assert (p ^ 2 <= e ^ 2 - m ^ 2). { pose proof (pow2_sqrt (e ^ 2 - m ^ 2) ltac:(lra)). 
      assert (p ^ 2 <= sqrt (e ^ 2 - m ^ 2) ^ 2) by (apply pow_incr; lra). lra. } nra.
  - rewrite <- (sqrt_pow2 p) by auto. apply sqrt_le_1_alt. nra.
Qed.
Lemma root_none p m e : 0 <= p -> root_or None e m = None -> energy p m <= e -> p = 0.
Proof.
  intros Hp HR HE. pose proof (energy_sq p m). pose proof (energy_nonneg p m). unfold root_or in HR.
  destruct (Rle_dec e 0).
  - nra.
  - destruct (Rle_dec (e ^ 2 - m ^ 2) 0); [|discriminate]. nra.
Qed.

Lemma massless_limits p0 p1 m1 B : 0 < p0 -> 0 <= p1 -> 0 <= m1 -> 0 < B ->
  let v := (B ^ 2 - 4 * m1 ^ 2 * p0 ^ 2) / (4 * p0 * - B) in
  (Rmax v (- v) <= p1 <-> - (2 * p0 * p1) <= B - 2 * p0 * energy p1 m1 <= 2 * p0 * p1).
Proof.
  intros H0 H1 Hm HB v. rewrite max_opp_le. unfold v.
  replace ((B ^ 2 - 4 * m1 ^ 2 * p0 ^ 2) / (4 * p0 * - B)) with ((4 * m1 ^ 2 * p0 ^ 2 - B ^ 2) / (4 * p0 * B)) by (field; lra).
  replace (- ((4 * m1 ^ 2 * p0 ^ 2 - B ^ 2) / (4 * p0 * B))) with ((B ^ 2 - 4 * m1 ^ 2 * p0 ^ 2) / (4 * p0 * B)) by (field; lra).
  assert (0 < 4 * p0 * B) by (apply Rmult_lt_0_compat; lra). rewrite !div_le_l by auto.
  pose proof (energy_sq p1 m1) as Q. pose proof (energy_nonneg p1 m1) as NE. set (e := energy p1 m1) in *.
  assert (Q' : (2 * p0 * e) ^ 2 = 4 * p0 ^ 2 * p1 ^ 2 + 4 * m1 ^ 2 * p0 ^ 2) by (replace ((2 * p0 * e) ^ 2) with (4 * p0 ^ 2 * e ^ 2) by ring; rewrite Q; ring).
  assert (H3 : 0 <= 2 * p0 * e) by (apply Rmult_le_pos; lra). assert (H4 : 0 <= 2 * p0 * p1) by (apply Rmult_le_pos; lra).
  set (x := 2 * p0 * e) in *. set (y := 2 * p0 * p1) in *.
  replace (p1 * (4 * p0 * B)) with (2 * y * B) by (unfold y; ring).
  assert (Qx : x ^ 2 = y ^ 2 + 4 * m1 ^ 2 * p0 ^ 2) by (rewrite Q'; unfold y; ring). clear Q'.
  set (w := 4 * m1 ^ 2 * p0 ^ 2) in *. assert (H5 : 0 <= w) by (unfold w; apply Rmult_le_pos; [apply Rmult_le_pos; [lra|apply pow2_ge_0]|apply pow2_ge_0]).
  assert (HB2 : 0 < B) by exact HB. clearbody x y w. clear - HB2 Qx H3 H4 H5.
  split.
  - intros (A1 & A2).
    assert (x <= B + y) by (apply Rsqr_incr_0_var; [rewrite !Rsqr_pow2; nra|lra]).
    destruct (Rle_dec B y); [split; lra|].
    assert (B - y <= x) by (apply Rsqr_incr_0_var; [rewrite !Rsqr_pow2; nra|lra]). split; lra.
  - intros (A1 & A2). assert (x ^ 2 <= (B + y) ^ 2) by (apply pow_incr; lra). split; [nra|].
    destruct (Rle_dec B y); [nra|]. assert ((B - y) ^ 2 <= x ^ 2) by (apply pow_incr; lra). nra.
Qed.

Lemma creation3_set rs p0 p1 : masses_ok rs -> sides3_are rs (-1) (-1) 1 -> mass (rs 0%nat) + mass (rs 1%nat) < mass (rs 2%nat) -> 0 < p0 -> 0 <= p1 ->
  let E := energy p0 (mass (rs 0%nat)) in let e := energy p1 (mass (rs 1%nat)) in
  let A := mass (rs 2%nat) ^ 2 - mass (rs 1%nat) ^ 2 - mass (rs 0%nat) ^ 2 in
  (allowed3 rs p0 p1 <-> - (2 * p0 * p1) <= A - 2 * E * e <= 2 * p0 * p1).
Proof.
  intros Hm Hs Hth H0 H1 E e A. destruct Hs as (S0 & S1 & S2).
  pose proof (Hm 0%nat) as M0. pose proof (Hm 1%nat) as M1. pose proof (Hm 2%nat) as M2.
  assert (HE2 : E ^ 2 = p0 ^ 2 + mass (rs 0%nat) ^ 2) by apply energy_sq. assert (He2 : e ^ 2 = p1 ^ 2 + mass (rs 1%nat) ^ 2) by apply energy_sq.
  assert (HEn : 0 <= E) by apply energy_nonneg. assert (Hen : 0 <= e) by apply energy_nonneg.
  assert (HEv : E2_of rs p0 p1 = E + e) by (unfold E2_of; rewrite S0, S1, S2; unfold E, e; ring).
  unfold allowed3, p2_of. rewrite HEv. split.
  - intros (HM & HT). apply triangle_sq in HT; auto; [|lra|nra]. unfold A. nra.
  - intros HK. assert (HQ : mass (rs 2%nat) ^ 2 <= (E + e) ^ 2).
    { pose proof (pow2_ge_0 (p0 - p1)). unfold A in HK.
      replace ((E + e) ^ 2) with (E ^ 2 + e ^ 2 + 2 * E * e) by ring. rewrite HE2, He2. lra. }
    assert (HM : mass (rs 2%nat) <= E + e) by (clear - HQ HEn Hen M2; nra). split; [exact HM|].
    apply triangle_sq; auto; [lra|nra|]. unfold A in HK. nra.
Qed.

Lemma creation3_exact rs max_2 st p0 : masses_ok rs -> sides3_are rs (-1) (-1) 1 ->
  mass (rs 0%nat) + mass (rs 1%nat) < mass (rs 2%nat) -> 0 < p0 -> 0 <= max_2 ->
  match snd (p1_step3 rs max_2 st p0) with
  | Some (lo, hi) => forall p1, 0 <= p1 -> (lo <= p1 <= hi <-> allowed3 rs p0 p1 /\ p2_of rs p0 p1 <= max_2)
  | None => forall p1 p1', 0 <= p1 -> 0 <= p1' -> allowed3 rs p0 p1 /\ p2_of rs p0 p1 <= max_2 ->
            allowed3 rs p0 p1' /\ p2_of rs p0 p1' <= max_2 -> p1 = p1'
  end.
Proof.
  intros Hm Hs Hth H0 Hmax. unfold p1_step3. rewrite (side_sum3 _ _ _ _ Hs).
  destruct st as [a b]. replace (-1 + -1 + 1 =? CREATION3)%Z with true by reflexivity. cbv iota.
  assert (HC : forall p1, 0 <= p1 -> mass (rs 2%nat) <= E2_of rs p0 p1 ->
     (p2_of rs p0 p1 <= max_2 <-> energy p1 (mass (rs 1%nat)) <= energy max_2 (mass (rs 2%nat)) - energy p0 (mass (rs 0%nat)))).
  { intros p1 H1 HM. pose proof (Hm 2%nat). unfold p2_of. destruct Hs as (S0 & S1 & S2).
    assert (HEv : E2_of rs p0 p1 = energy p0 (mass (rs 0%nat)) + energy p1 (mass (rs 1%nat))) by (unfold E2_of; rewrite S0, S1, S2; ring).
    rewrite HEv in *. set (X := energy p0 (mass (rs 0%nat)) + energy p1 (mass (rs 1%nat))) in *.
    pose proof (energy_sq max_2 (mass (rs 2%nat))). pose proof (energy_nonneg max_2 (mass (rs 2%nat))).
    assert (HX : 0 <= X ^ 2 - mass (rs 2%nat) ^ 2) by nra. pose proof (sqrt_pos (X ^ 2 - mass (rs 2%nat) ^ 2)). pose proof (pow2_sqrt _ HX).
    split; intros HH.
    - assert (X <= energy max_2 (mass (rs 2%nat))) by nra. unfold X in *. lra.
    - assert (X <= energy max_2 (mass (rs 2%nat))) by (unfold X; lra). nra. }
  pose proof (Hm 0%nat) as M0. pose proof (Hm 1%nat) as M1. pose proof (Hm 2%nat) as M2.
  set (A := mass (rs 2%nat) ^ 2 - mass (rs 1%nat) ^ 2 - mass (rs 0%nat) ^ 2).
  assert (HA : 0 < A) by (unfold A; nra).
  change (masses_of rs 0) with (mass (rs 0%nat)).
  set (lo := if Req_EM_T (mass (rs 0%nat)) 0 then p1_bounds_2 (masses_of rs) p0 else p1_bounds_3 (masses_of rs) p0 (-1) 1).
  (* the set without the grid condition *)
  assert (HSET : forall p1, 0 <= p1 -> (allowed3 rs p0 p1 <-> Rmax lo (- lo) <= p1 /\ (mass (rs 0%nat) = 0 \/ p1 <= p1_bounds_3 (masses_of rs) p0 1 1))).
  { intros p1 H1. rewrite (creation3_set rs p0 p1 Hm Hs Hth H0 H1). cbv zeta. fold A. unfold lo.
    destruct (Req_EM_T (mass (rs 0%nat)) 0) as [Z|NZ].
    - rewrite Z, (energy_zero p0) by lra.
      pose proof (massless_limits p0 p1 (mass (rs 1%nat)) A H0 H1 M1 HA) as ML. cbv zeta in ML. rewrite <- ML.
      unfold p1_bounds_2, masses_of.
      replace (mass (rs 1%nat) ^ 4 + mass (rs 2%nat) ^ 4 - 2 * mass (rs 1%nat) ^ 2 * (mass (rs 2%nat) ^ 2 + 2 * p0 ^ 2))
        with (A ^ 2 - 4 * mass (rs 1%nat) ^ 2 * p0 ^ 2) by (unfold A; rewrite Z; ring).
      replace (mass (rs 1%nat) ^ 2 - mass (rs 2%nat) ^ 2) with (- A) by (unfold A; rewrite Z; ring). tauto.
    - assert (P0 : 0 < mass (rs 0%nat)) by lra.
      assert (HL : 0 <= A ^ 2 - 4 * mass (rs 0%nat) ^ 2 * mass (rs 1%nat) ^ 2).
      { replace (A ^ 2 - 4 * mass (rs 0%nat) ^ 2 * mass (rs 1%nat) ^ 2)
          with ((mass (rs 2%nat) ^ 2 - mass (rs 0%nat) ^ 2 - mass (rs 1%nat) ^ 2) ^ 2 - 4 * mass (rs 0%nat) ^ 2 * mass (rs 1%nat) ^ 2) by (unfold A; ring).
        left. now apply kallen_pos. }
      assert (HA2 : A ^ 2 = (mass (rs 0%nat) ^ 2 + mass (rs 1%nat) ^ 2 - mass (rs 2%nat) ^ 2) ^ 2) by (unfold A; ring).
      rewrite (bounds_3_value (masses_of rs) p0 A (-1)), (bounds_3_value (masses_of rs) p0 A 1) by (auto; lra). unfold masses_of. fold A.
      pose proof (two_body_limits A (energy p0 (mass (rs 0%nat))) p0 p1 (energy p1 (mass (rs 1%nat))) (mass (rs 1%nat)) (mass (rs 0%nat) ^ 2)
        (Rlt_le _ _ H0) H1 (energy_nonneg _ _) (energy_nonneg _ _) (energy_sq _ _) ltac:(rewrite energy_sq; lra) ltac:(nra) (Rlt_le _ _ HA) HL) as TB.
      cbv zeta in TB. rewrite <- TB.
      replace (-1 * (p0 * A)) with (- (A * p0)) by ring. replace (1 * (p0 * A)) with (A * p0) by ring.
      split; [intros (X & Y); split; [exact X|now right]|intros (X & [Y|Y]); [contradiction|now split]]. }
  unfold p1_bounds_4. change (masses_of rs 0) with (mass (rs 0%nat)). change (masses_of rs 1) with (mass (rs 1%nat)). change (masses_of rs 2) with (mass (rs 2%nat)).
  destruct (root_or None (energy max_2 (mass (rs 2%nat)) - energy p0 (mass (rs 0%nat))) (mass (rs 1%nat))) as [t|] eqn:ER.
  - assert (HT : forall p1, 0 <= p1 -> (allowed3 rs p0 p1 /\ p2_of rs p0 p1 <= max_2 <->
        Rmax lo (- lo) <= p1 /\ (mass (rs 0%nat) = 0 \/ p1 <= p1_bounds_3 (masses_of rs) p0 1 1) /\ p1 <= t)).
    { intros p1 H1. rewrite (root_le_iff p1 _ _ t H1 ER). split.
      - intros (HAl & HG). pose proof (proj1 (HSET p1 H1) HAl) as (U & V). split; [exact U|]. split; [exact V|]. apply HC; auto. exact (proj1 HAl).
      - intros (U & V & W). assert (HAl : allowed3 rs p0 p1) by (apply HSET; auto). split; [exact HAl|]. apply HC; auto. exact (proj1 HAl). }
    set (hi := if Req_EM_T (mass (rs 0%nat)) 0 then t else Rmin (p1_bounds_3 (masses_of rs) p0 1 1) t).
    assert (HH : forall p1, (mass (rs 0%nat) = 0 \/ p1 <= p1_bounds_3 (masses_of rs) p0 1 1) /\ p1 <= t <-> p1 <= hi).
    { intros p1. unfold hi. destruct (Req_EM_T (mass (rs 0%nat)) 0) as [Z|NZ]; [tauto|].
      pose proof (Rmin_l (p1_bounds_3 (masses_of rs) p0 1 1) t). pose proof (Rmin_r (p1_bounds_3 (masses_of rs) p0 1 1) t).
      split; [intros ([X|X] & Y); [contradiction|now apply Rmin_glb]|lra]. }
    cbn [snd]. destruct (Rle_dec hi (Rmax lo (- lo))) as [HLE|].
    + intros p1 p1' H1 H1' X Y. apply HT in X; auto. apply HT in Y; auto. destruct X as (X1 & X2). destruct Y as (Y1 & Y2).
      apply HH in X2. apply HH in Y2. lra.
    + intros p1 H1. rewrite (HT p1 H1), (HH p1). tauto.
  - cbn [snd]. intros p1 p1' H1 H1' (X & X') (Y & Y').
    apply HC in X'; [|auto|exact (proj1 X)]. apply HC in Y'; [|auto|exact (proj1 Y)].
    rewrite (root_none p1 _ _ H1 ER X'), (root_none p1' _ _ H1' ER Y'). reflexivity.
Qed.

(* p0 = 0: back-to-back momenta *)
Lemma rest3 m : (forall n, 0 <= m n) -> 0 < m 0%nat -> (m 1%nat + m 2%nat < m 0%nat \/ m 0%nat + m 1%nat < m 2%nat) ->
  exists p, p1_bounds_1 m = Some p /\ 0 < p /\ forall q, 0 <= q ->
    (m 1%nat + m 2%nat < m 0%nat -> (energy q (m 1%nat) + energy q (m 2%nat) = m 0%nat <-> q = p)) /\
    (m 0%nat + m 1%nat < m 2%nat -> (m 0%nat + energy q (m 1%nat) = energy q (m 2%nat) <-> q = p)).
Proof.
  intros Hm P0 Hth. pose proof (Hm 0%nat). pose proof (Hm 1%nat) as M1. pose proof (Hm 2%nat) as M2. unfold p1_bounds_1.
  destruct (Req_EM_T (m 0%nat) 0) as [|_]; [lra|].
  set (L := (m 0%nat ^ 2 - m 1%nat ^ 2 - m 2%nat ^ 2) ^ 2 - 4 * m 1%nat ^ 2 * m 2%nat ^ 2).
  assert (HL : 0 < L).
  { destruct Hth; [now apply kallen_pos|]. unfold L.
    replace ((m 0%nat ^ 2 - m 1%nat ^ 2 - m 2%nat ^ 2) ^ 2 - 4 * m 1%nat ^ 2 * m 2%nat ^ 2)
      with ((m 2%nat ^ 2 - m 0%nat ^ 2 - m 1%nat ^ 2) ^ 2 - 4 * m 0%nat ^ 2 * m 1%nat ^ 2) by ring. now apply kallen_pos. }
  unfold csqrt. destruct (Rlt_dec L 0); [lra|]. cbn [option_map]. eexists. split; [reflexivity|].
  set (p := sqrt L / (2 * m 0%nat)).
  assert (Hp : 0 < p) by (apply Rdiv_lt_0_compat; [now apply sqrt_lt_R0|lra]).
  assert (Hp2 : 4 * m 0%nat ^ 2 * p ^ 2 = L).
  { unfold p. replace (4 * m 0%nat ^ 2 * (sqrt L / (2 * m 0%nat)) ^ 2) with (sqrt L ^ 2) by (field; lra). apply pow2_sqrt. lra. }
  split; [exact Hp|]. intros q Hq.
  pose proof (energy_sq q (m 1%nat)) as Q1. pose proof (energy_sq q (m 2%nat)) as Q2.
  pose proof (energy_nonneg q (m 1%nat)) as N1. pose proof (energy_nonneg q (m 2%nat)) as N2.
  set (x := energy q (m 1%nat)) in *. set (y := energy q (m 2%nat)) in *.
  assert (KEY : (2 * m 0%nat * x) ^ 2 = (m 0%nat ^ 2 + m 1%nat ^ 2 - m 2%nat ^ 2) ^ 2 <-> q = p).
  { replace ((2 * m 0%nat * x) ^ 2) with (4 * m 0%nat ^ 2 * x ^ 2) by ring. rewrite Q1.
    assert (HLe : (m 0%nat ^ 2 + m 1%nat ^ 2 - m 2%nat ^ 2) ^ 2 = L + 4 * m 0%nat ^ 2 * m 1%nat ^ 2) by (unfold L; ring).
    rewrite HLe, <- Hp2. split; intros HH; [|subst q; ring].
    assert (4 * m 0%nat ^ 2 * (q ^ 2 - p ^ 2) = 0) by lra. assert (0 < 4 * m 0%nat ^ 2) by nra.
    assert (q ^ 2 - p ^ 2 = 0) by (apply Rmult_integral in H0; destruct H0; lra). nra. }
  rewrite <- KEY. clear KEY. split; intros HT.
  - assert (HA : 0 < m 0%nat ^ 2 + m 1%nat ^ 2 - m 2%nat ^ 2) by nra. split; intros HH.
    + assert (y = m 0%nat - x) by lra. assert (2 * m 0%nat * x = m 0%nat ^ 2 + m 1%nat ^ 2 - m 2%nat ^ 2) by nra. now rewrite H1.
    + assert (HX : 2 * m 0%nat * x = m 0%nat ^ 2 + m 1%nat ^ 2 - m 2%nat ^ 2).
      { apply Rsqr_inj; [apply Rmult_le_pos; lra|lra|]. rewrite !Rsqr_pow2. exact HH. }
      assert (y ^ 2 = (m 0%nat - x) ^ 2) by nra.
      assert (x <= m 0%nat) by nra. nra.
  - assert (HA : 0 < m 2%nat ^ 2 - m 1%nat ^ 2 - m 0%nat ^ 2) by nra. split; intros HH.
    + assert (2 * m 0%nat * x = m 2%nat ^ 2 - m 1%nat ^ 2 - m 0%nat ^ 2) by nra. rewrite H0. ring.
    + assert (HX : 2 * m 0%nat * x = m 2%nat ^ 2 - m 1%nat ^ 2 - m 0%nat ^ 2).
      { apply Rsqr_inj; [apply Rmult_le_pos; lra|lra|]. rewrite !Rsqr_pow2, HH. ring. }
      assert (y ^ 2 = (m 0%nat + x) ^ 2) by nra. nra.
Qed.
