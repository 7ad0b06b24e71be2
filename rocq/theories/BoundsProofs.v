From Coq Require Import Reals Lra Psatz Permutation.
From Verif Require Import Base FunctionalModel DsModel DsProofs DsLimits BoundsModel.
Open Scope R_scope.

(* ---------- cut-offs ---------- *)
Definition polygon4 (a b c d : R) : Prop := a <= b + c + d /\ b <= c + d + a /\ c <= d + a + b /\ d <= a + b + c.
Definition triangle (a b c : R) : Prop := a <= b + c /\ b <= c + a /\ c <= a + b.

Lemma in_bounds4_iff p E m : (forall n, (n < 4)%nat -> 0 <= p n) ->
  (in_bounds4 p E m = true <-> m 3%nat <= E 3%nat /\ polygon4 (p 0%nat) (p 1%nat) (p 2%nat) (p 3%nat)).
Proof.
  intros Hp. pose proof (Hp 0%nat ltac:(lia)). pose proof (Hp 1%nat ltac:(lia)). pose proof (Hp 2%nat ltac:(lia)). pose proof (Hp 3%nat ltac:(lia)).
  unfold in_bounds4, polygon4. cbv beta iota zeta.
  destruct (Rlt_dec (p 0%nat) (p 1%nat)); destruct (Rlt_dec (p 2%nat) (p 3%nat));
    (destruct (Rle_dec (m 3%nat) (E 3%nat)); [|split; [discriminate|lra]]);
    repeat match goal with |- context [Rle_dec ?a ?b] => destruct (Rle_dec a b) end;
    split; intros X; try discriminate; try reflexivity; try lra.
Qed.

Lemma in_bounds3_perm p q : Permutation [p 0%nat; p 1%nat; p 2%nat] [q 0%nat; q 1%nat; q 2%nat] -> in_bounds3 p = in_bounds3 q.
Proof.
  intros HP. unfold in_bounds3.
  destruct (sort3 (p 0%nat) (p 1%nat) (p 2%nat)) as [[a b] c] eqn:E1. destruct (sort3 (q 0%nat) (q 1%nat) (q 2%nat)) as [[x y] z] eqn:E2.
  destruct (sort3_spec _ _ _ _ _ _ E1) as (O1 & P1). destruct (sort3_spec _ _ _ _ _ _ E2) as (O2 & P2).
  assert (H : Permutation [a; b; c] [x; y; z]).
  { eapply perm_trans; [symmetry; exact P1|]. eapply perm_trans; [exact HP|exact P2]. }
  apply perm3_inv in H.
  assert (a = x /\ b = y /\ c = z) as (-> & -> & ->); [|reflexivity].
  destruct H as [H|[H|[H|[H|[H|H]]]]]; destruct H as (-> & -> & ->); lra.
Qed.
Definition strict_triangle (a b c : R) : Prop := a < b + c /\ b < c + a /\ c < a + b.
Definition flat (a b c : R) : Prop := a = b + c \/ b = c + a \/ c = a + b.
Lemma tri_perm a b c x y z : Permutation [a; b; c] [x; y; z] ->
  (strict_triangle a b c <-> strict_triangle x y z) /\ (flat a b c <-> flat x y z) /\ (triangle a b c <-> triangle x y z) /\
  (0 < a /\ 0 < b /\ 0 < c <-> 0 < x /\ 0 < y /\ 0 < z) /\ (0 <= a /\ 0 <= b /\ 0 <= c <-> 0 <= x /\ 0 <= y /\ 0 <= z).
Proof.
  intros H. apply perm3_inv in H. unfold strict_triangle, flat, triangle.
  destruct H as [H|[H|[H|[H|[H|H]]]]]; destruct H as (-> & -> & ->); repeat split; intros; lra.
Qed.
Lemma in_bounds3_value p : 0 <= p 0%nat -> 0 <= p 1%nat -> 0 <= p 2%nat ->
  let '(a, b, c) := (p 0%nat, p 1%nat, p 2%nat) in
  (strict_triangle a b c /\ in_bounds3 p = 2) \/
  (flat a b c /\ 0 < a /\ 0 < b /\ 0 < c /\ in_bounds3 p = 1) \/
  ((~ triangle a b c \/ (flat a b c /\ ~ (0 < a /\ 0 < b /\ 0 < c))) /\ in_bounds3 p = 0).
Proof.
  intros Ha Hb Hc. cbv beta iota. unfold in_bounds3.
  destruct (sort3 (p 0%nat) (p 1%nat) (p 2%nat)) as [[a b] c] eqn:E1. destruct (sort3_spec _ _ _ _ _ _ E1) as (O1 & P1).
  destruct (tri_perm _ _ _ _ _ _ P1) as (T1 & T2 & T3 & T4 & T5). rewrite T1, T2, T3, T4.
  assert (HT : flat (p 0%nat) (p 1%nat) (p 2%nat) /\ 0 < p 0%nat /\ 0 < p 1%nat /\ 0 < p 2%nat <-> flat a b c /\ 0 < a /\ 0 < b /\ 0 < c) by (rewrite T2, T4; tauto).
  assert (HN : 0 <= a /\ 0 <= b /\ 0 <= c) by (apply T5; auto).
  assert (G : (strict_triangle a b c /\ sgn (a + b - c) + sgn (a - b + c) - sgn (a - b - c) - sgn (a + b + c) = 2) \/
    ((flat a b c /\ 0 < a /\ 0 < b /\ 0 < c) /\ sgn (a + b - c) + sgn (a - b + c) - sgn (a - b - c) - sgn (a + b + c) = 1) \/
    ((~ triangle a b c \/ (flat a b c /\ ~ (0 < a /\ 0 < b /\ 0 < c))) /\ sgn (a + b - c) + sgn (a - b + c) - sgn (a - b - c) - sgn (a + b + c) = 0)).
  { unfold strict_triangle, flat, triangle. destruct (Rtotal_order a (b + c)) as [O|[O|O]].
    - left. split; [lra|]. sg. lra.
    - destruct (Req_dec c 0) as [C|C].
      + right; right. split; [right; lra|]. destruct (Req_dec b 0); sg; lra.
      + right; left. split; [lra|]. sg. lra.
    - right; right. split; [left; lra|]. sg. lra. }
  destruct G as [G|[G|G]]; tauto.
Qed.

(* ---------- energies ---------- *)
Lemma energy_nonneg p m : 0 <= energy p m.
Proof. apply sqrt_pos. Qed.
Lemma energy_sq p m : energy p m ^ 2 = p ^ 2 + m ^ 2.
Proof. unfold energy. apply pow2_sqrt. pose proof (pow2_ge_0 p). pose proof (pow2_ge_0 m). lra. Qed.
Lemma energy_ge p m : 0 <= p -> p <= energy p m.
Proof. intros Hp. pose proof (energy_sq p m). pose proof (energy_nonneg p m). nra. Qed.
Lemma energy_ge_m p m : m <= energy p m.
Proof. pose proof (energy_sq p m). pose proof (energy_nonneg p m). nra. Qed.
Lemma energy_zero p : 0 <= p -> energy p 0 = p.
Proof. intros. unfold energy. replace (p ^ 2 + 0 ^ 2) with (p * p) by ring. now apply sqrt_square. Qed.
Lemma energy_rest m : 0 <= m -> energy 0 m = m.
Proof. intros. unfold energy. replace (0 ^ 2 + m ^ 2) with (m * m) by ring. now apply sqrt_square. Qed.
Lemma energy_mono p q m : 0 <= p <= q -> energy p m <= energy q m.
Proof. intros. unfold energy. apply sqrt_le_1_alt. nra. Qed.
Lemma energy_le_inv p q m : 0 <= q -> energy p m <= energy q m -> p <= q.
Proof. intros Hq H. pose proof (energy_sq p m). pose proof (energy_sq q m). pose proof (energy_nonneg p m). nra. Qed.

(* ---------- square roots as limits ---------- *)
Lemma csqrt_ge p m e : 0 <= p -> 0 <= e -> energy p m <= e -> exists h, csqrt (e ^ 2 - m ^ 2) = Some h /\ p <= h.
Proof.
  intros Hp He H. pose proof (energy_sq p m). pose proof (energy_nonneg p m). unfold csqrt.
  assert (p ^ 2 <= e ^ 2 - m ^ 2) by nra. destruct (Rlt_dec (e ^ 2 - m ^ 2) 0) as [X|X]; [pose proof (pow2_ge_0 p); lra|].
  exists (sqrt (e ^ 2 - m ^ 2)). split; [reflexivity|]. rewrite <- (sqrt_pow2 p) by auto. now apply sqrt_le_1_alt.
Qed.
Lemma root_or_min p m e : 0 <= p -> e <= energy p m -> exists l, root_or (Some 0) e m = Some l /\ l <= p.
Proof.
  intros Hp H. unfold root_or. destruct (Rle_dec e 0); [exists 0; auto|]. destruct (Rle_dec (e ^ 2 - m ^ 2) 0); [exists 0; auto|].
  eexists; split; [reflexivity|]. rewrite <- (sqrt_pow2 p) by auto. apply sqrt_le_1_alt.
  pose proof (energy_sq p m). pose proof (energy_nonneg p m). nra.
Qed.
Lemma root_or_max p m e : 0 <= p -> 0 < e \/ 0 < m \/ 0 < p -> 0 <= m -> energy p m <= e -> p = 0 \/ exists h, root_or None e m = Some h /\ p <= h.
Proof.
  intros Hp Hpos Hm H. destruct (Req_dec p 0) as [|N]; [now left|right]. unfold root_or. pose proof (energy_sq p m). pose proof (energy_ge p m Hp).
  destruct (Rle_dec e 0); [lra|]. assert (p ^ 2 <= e ^ 2 - m ^ 2) by nra. assert (0 < p ^ 2) by nra.
  destruct (Rle_dec (e ^ 2 - m ^ 2) 0); [lra|]. eexists; split; [reflexivity|]. rewrite <- (sqrt_pow2 p) by auto. now apply sqrt_le_1_alt.
Qed.

(* ---------- two bodies of given total energy and momentum ---------- *)
(* e, mu: energy and mass of one of them; A = s + mu^2 - other mass^2 *)
Lemma two_body_fwd A E P p e mu s : 0 <= P -> 0 <= p -> 0 <= e -> 0 <= E -> e ^ 2 = p ^ 2 + mu ^ 2 -> s = E ^ 2 - P ^ 2 -> 0 < s ->
  - (2 * P * p) <= A - 2 * E * e <= 2 * P * p ->
  0 <= A /\ 0 <= A ^ 2 - 4 * s * mu ^ 2 /\
  - (E * sqrt (A ^ 2 - 4 * s * mu ^ 2)) <= 2 * s * p - A * P <= E * sqrt (A ^ 2 - 4 * s * mu ^ 2) /\
  E * sqrt (A ^ 2 - 4 * s * mu ^ 2) <= 2 * s * p + A * P.
Proof.
  intros HP Hp He HE He2 Hs Hs0 [H1 H2].
  assert (HPE : P <= E) by nra. assert (Hpe : p <= e) by nra.
  assert (HA : 0 <= A) by nra.
  assert (Q1 : (2 * E * e) ^ 2 <= (A + 2 * P * p) ^ 2).
  { apply pow_incr. split; [|lra]. apply Rmult_le_pos; [|exact He]. lra. }
  assert (Q2 : (2 * s * p - A * P) ^ 2 <= E ^ 2 * (A ^ 2 - 4 * s * mu ^ 2)).
  { replace ((2 * s * p - A * P) ^ 2) with (E ^ 2 * (A ^ 2 - 4 * s * mu ^ 2) + s * ((2 * E * e) ^ 2 - (A + 2 * P * p) ^ 2)).
    - nra.
    - replace ((2 * E * e) ^ 2) with (4 * E ^ 2 * e ^ 2) by ring. rewrite He2, Hs. ring. }
  assert (HEpos : 0 < E ^ 2) by nra.
  assert (HL : 0 <= A ^ 2 - 4 * s * mu ^ 2).
  { pose proof (pow2_ge_0 (2 * s * p - A * P)). apply Rmult_le_reg_l with (E ^ 2); lra. }
  set (L := A ^ 2 - 4 * s * mu ^ 2) in *. pose proof (sqrt_pos L) as HsL. pose proof (pow2_sqrt L HL) as HsL2.
  assert (Q2' : (2 * s * p - A * P) ^ 2 <= (E * sqrt L) ^ 2) by (rewrite Rpow_mult_distr, HsL2; exact Q2).
  assert (HEL : 0 <= E * sqrt L) by (apply Rmult_le_pos; auto).
  split; [exact HA|]. split; [exact HL|]. split; [split; nra|].
  assert (Q3 : (A - 2 * P * p) ^ 2 <= (2 * E * e) ^ 2).
  { assert (X1 : A - 2 * P * p <= 2 * E * e) by lra. assert (X2 : - (2 * E * e) <= A - 2 * P * p) by nra. nra. }
  assert (Q4 : (E * sqrt L) ^ 2 <= (2 * s * p + A * P) ^ 2).
  { rewrite Rpow_mult_distr, HsL2. replace ((2 * s * p + A * P) ^ 2) with (E ^ 2 * L + s * ((2 * E * e) ^ 2 - (A - 2 * P * p) ^ 2)).
    - nra.
    - replace ((2 * E * e) ^ 2) with (4 * E ^ 2 * e ^ 2) by ring. rewrite He2. unfold L. rewrite Hs. ring. }
  assert (0 <= 2 * s * p + A * P) by (apply Rplus_le_le_0_compat; [nra|apply Rmult_le_pos; auto]).
  nra.
Qed.
Lemma two_body_bwd A E P p e mu s : 0 <= P -> 0 <= p -> 0 <= e -> 0 <= E -> e ^ 2 = p ^ 2 + mu ^ 2 -> s = E ^ 2 - P ^ 2 -> 0 < s ->
  0 <= A -> 0 <= A ^ 2 - 4 * s * mu ^ 2 ->
  - (E * sqrt (A ^ 2 - 4 * s * mu ^ 2)) <= 2 * s * p - A * P <= E * sqrt (A ^ 2 - 4 * s * mu ^ 2) ->
  E * sqrt (A ^ 2 - 4 * s * mu ^ 2) <= 2 * s * p + A * P ->
  - (2 * P * p) <= A - 2 * E * e <= 2 * P * p.
Proof.
  intros HP Hp He HE He2 Hs Hs0 HA HL [H1 H2] H3.
  set (L := A ^ 2 - 4 * s * mu ^ 2) in *. pose proof (sqrt_pos L) as HsL. pose proof (pow2_sqrt L HL) as HsL2.
  assert (HEL : 0 <= E * sqrt L) by (apply Rmult_le_pos; auto).
  assert (Q2 : (2 * s * p - A * P) ^ 2 <= E ^ 2 * L).
  { rewrite <- HsL2, <- Rpow_mult_distr. nra. }
  assert (Q4 : E ^ 2 * L <= (2 * s * p + A * P) ^ 2).
  { rewrite <- HsL2, <- Rpow_mult_distr. nra. }
  assert (I1 : (2 * s * p - A * P) ^ 2 = E ^ 2 * L + s * ((2 * E * e) ^ 2 - (A + 2 * P * p) ^ 2)).
  { replace ((2 * E * e) ^ 2) with (4 * E ^ 2 * e ^ 2) by ring. rewrite He2. unfold L. rewrite Hs. ring. }
  assert (I2 : (2 * s * p + A * P) ^ 2 = E ^ 2 * L + s * ((2 * E * e) ^ 2 - (A - 2 * P * p) ^ 2)).
  { replace ((2 * E * e) ^ 2) with (4 * E ^ 2 * e ^ 2) by ring. rewrite He2. unfold L. rewrite Hs. ring. }
  assert (J1 : (2 * E * e) ^ 2 <= (A + 2 * P * p) ^ 2) by (apply Rmult_le_reg_l with s; lra).
  assert (J2 : (A - 2 * P * p) ^ 2 <= (2 * E * e) ^ 2) by (apply Rmult_le_reg_l with s; lra).
  assert (0 <= 2 * E * e) by (apply Rmult_le_pos; auto; lra). assert (0 <= 2 * P * p) by (apply Rmult_le_pos; auto; lra).
  split; nra.
Qed.
Lemma triangle_sq P p k2 : 0 <= P -> 0 <= p -> 0 <= k2 ->
  (triangle P p (sqrt k2) <-> - (2 * P * p) <= k2 - P ^ 2 - p ^ 2 <= 2 * P * p).
Proof.
  intros HP Hp Hk. pose proof (sqrt_pos k2) as H1. pose proof (pow2_sqrt k2 Hk) as H2. unfold triangle. split.
  - intros (A & B & C). split; nra.
  - intros (A & B). set (k := sqrt k2) in *. repeat split; nra.
Qed.

(* ---------- where the four-particle integrand can be non-zero ---------- *)
Definition E3_of (rs : nat -> participant) (p0 p1 p2 : R) : R :=
  let s n := IZR (sides_of rs n) in
  (0 + s 0%nat * energy p0 (mass (rs 0%nat)) + s 1%nat * energy p1 (mass (rs 1%nat)) + s 2%nat * energy p2 (mass (rs 2%nat))) * - s 3%nat.
Definition p3_of (rs : nat -> participant) (p0 p1 p2 : R) : R := sqrt (E3_of rs p0 p1 p2 ^ 2 - mass (rs 3%nat) ^ 2).
Definition allowed4 (rs : nat -> participant) (p0 p1 p2 : R) : Prop :=
  mass (rs 3%nat) <= E3_of rs p0 p1 p2 /\ polygon4 p0 p1 p2 (p3_of rs p0 p1 p2).
Lemma support4 rs M Ms k p0 p1 p2 : 0 <= p0 -> 0 <= p1 -> 0 <= p2 ->
  integrand4 rs M Ms k p0 p1 p2 <> Ok 0 -> allowed4 rs p0 p1 p2.
Proof.
  intros H0 H1 H2 HN. unfold integrand4, momenta4 in HN. cbv zeta in HN. unfold masses_of in HN.
  fold (E3_of rs p0 p1 p2) in HN. unfold allowed4.
  change ((0 + IZR (sides_of rs 0) * energy p0 (mass (rs 0%nat)) + IZR (sides_of rs 1) * energy p1 (mass (rs 1%nat)) +
     IZR (sides_of rs 2) * energy p2 (mass (rs 2%nat))) * - IZR (sides_of rs 3)) with (E3_of rs p0 p1 p2) in HN.
  destruct (Rlt_dec (E3_of rs p0 p1 p2) (mass (rs 3%nat))) as [X|X]; [congruence|].
  cbv beta iota in HN.
  match type of HN with (if ?b then _ else _) <> _ => destruct b eqn:EB; [|congruence] end.
  apply in_bounds4_iff in EB.
  - cbv beta iota in EB. split; [lra|]. exact (proj2 EB).
  - intros n Hn. destruct n as [|[|[|[|n]]]]; auto; [apply sqrt_pos|lia].
Qed.

Definition within (lo hi : option R) (p : R) : Prop := exists l h, lo = Some l /\ hi = Some h /\ l <= p <= h.
(* (p1, p2) lies between the outer and the inner limits of integration() when
   the iteration for p0 starts with the private copies st *)
Definition covered (rs : nat -> participant) (st lim2 : option R * option R) (max_3 p0 p1 p2 : R) : Prop :=
  exists lim1, snd (p1_step rs max_3 st p0) = Some lim1 /\ within (fst lim1) (snd lim1) p1 /\
  exists lim2', p2_limits rs (fst lim2) (snd lim2) max_3 p0 p1 = Some lim2' /\ within (fst lim2') (snd lim2') p2.

Definition sides_are (rs : nat -> participant) (a b c d : Z) : Prop :=
  sides_of rs 0 = a /\ sides_of rs 1 = b /\ sides_of rs 2 = c /\ sides_of rs 3 = d.
Definition masses_ok (rs : nat -> participant) : Prop := forall n, 0 <= mass (rs n).

Lemma side_sum4 rs a b c d : sides_are rs a b c d -> side_sum rs 4 = (a + b + c + d)%Z.
Proof. intros (A & B & C & D). unfold side_sum. cbn [seq fold_left]. rewrite A, B, C, D. ring. Qed.

Lemma cover_decay rs st lim2 min_1 max_3 p0 p1 p2 : masses_ok rs -> sides_are rs (-1) 1 1 1 ->
  0 <= p0 -> 0 <= p1 -> 0 <= p2 -> fst st = Some min_1 -> min_1 <= p1 -> allowed4 rs p0 p1 p2 -> covered rs st lim2 max_3 p0 p1 p2.
Proof.
  intros Hm Hs H0 H1 H2 Hst Hmin (HE & _). unfold covered, p1_step, p2_limits. rewrite (side_sum4 _ _ _ _ _ Hs).
  destruct Hs as (S0 & S1 & S2 & S3). unfold E3_of in HE. rewrite S0, S1, S2, S3 in HE. cbv zeta in HE.
  destruct st as [a b]. cbn [fst] in Hst. subst a. cbn -[energy csqrt pow p2_max_dec]. unfold masses_of.
  pose proof (energy_ge_m p2 (mass (rs 2%nat))). pose proof (Hm 2%nat). pose proof (Hm 3%nat). pose proof (energy_nonneg p1 (mass (rs 1%nat))).
  eexists. split; [reflexivity|]. split.
  - destruct (csqrt_ge p1 (mass (rs 1%nat)) (energy p0 (mass (rs 0%nat)) - mass (rs 2%nat) - mass (rs 3%nat)) H1) as (h & E1 & B1); try lra.
    exists min_1, h. cbn [fst snd]. auto.
  - eexists. split; [reflexivity|]. cbn [fst snd]. unfold p2_max_dec. pose proof (energy_nonneg p2 (mass (rs 2%nat))).
    destruct (csqrt_ge p2 (mass (rs 2%nat)) (energy p0 (mass (rs 0%nat)) - energy p1 (mass (rs 1%nat)) - mass (rs 3%nat)) H2) as (h & E1 & B1); try lra.
    exists 0, h. auto.
Qed.

Lemma cover_creation rs st lim2 max_3 p0 p1 p2 : masses_ok rs -> sides_are rs (-1) (-1) (-1) 1 -> mass (rs 3%nat) <> 0 ->
  0 <= p0 -> 0 <= p1 -> 0 <= p2 -> p3_of rs p0 p1 p2 < max_3 -> allowed4 rs p0 p1 p2 -> covered rs st lim2 max_3 p0 p1 p2.
Proof.
  intros Hm Hs Hm3 H0 H1 H2 H3 (HE & _). unfold covered, p1_step, p2_limits. rewrite (side_sum4 _ _ _ _ _ Hs).
  destruct Hs as (S0 & S1 & S2 & S3). unfold p3_of in H3.
  assert (HEv : E3_of rs p0 p1 p2 = energy p0 (mass (rs 0%nat)) + energy p1 (mass (rs 1%nat)) + energy p2 (mass (rs 2%nat))).
  { unfold E3_of. rewrite S0, S1, S2, S3. ring. }
  rewrite HEv in *. clear HEv.
  set (E0 := energy p0 (mass (rs 0%nat))) in *. set (E1 := energy p1 (mass (rs 1%nat))) in *. set (E2 := energy p2 (mass (rs 2%nat))) in *.
  pose proof (Hm 2%nat). pose proof (Hm 3%nat). pose proof (Hm 1%nat).
  assert (B0 : 0 <= E0) by apply energy_nonneg. assert (B1 : 0 <= E1) by apply energy_nonneg. assert (B2 : mass (rs 2%nat) <= E2) by apply energy_ge_m.
  assert (Hlt : E0 + E1 + E2 < energy max_3 (mass (rs 3%nat))).
  { assert (X : 0 <= (E0 + E1 + E2) ^ 2 - mass (rs 3%nat) ^ 2) by nra.
    pose proof (sqrt_pos ((E0 + E1 + E2) ^ 2 - mass (rs 3%nat) ^ 2)). pose proof (pow2_sqrt _ X).
    pose proof (energy_sq max_3 (mass (rs 3%nat))). pose proof (energy_nonneg max_3 (mass (rs 3%nat))).
    set (k := sqrt ((E0 + E1 + E2) ^ 2 - mass (rs 3%nat) ^ 2)) in *. nra. }
  destruct st as [a b]. cbn -[energy csqrt pow root_or]. unfold masses_of.
  destruct (Req_EM_T (mass (rs 3%nat)) 0) as [|_]; [contradiction|].
  fold E0. fold E1.
  assert (G1 : exists h, root_or None (energy max_3 (mass (rs 3%nat)) - mass (rs 2%nat) - E0) (mass (rs 1%nat)) = Some h /\ p1 <= h).
  { unfold root_or. pose proof (energy_sq p1 (mass (rs 1%nat))) as Q. fold E1 in Q. pose proof (pow2_ge_0 p1).
    set (e := energy max_3 (mass (rs 3%nat)) - mass (rs 2%nat) - E0) in *. assert (E1 < e) by (unfold e; lra).
    destruct (Rle_dec e 0); [lra|]. assert (p1 ^ 2 < e ^ 2 - mass (rs 1%nat) ^ 2) by nra.
    destruct (Rle_dec (e ^ 2 - mass (rs 1%nat) ^ 2) 0); [lra|]. eexists; split; [reflexivity|].
    rewrite <- (sqrt_pow2 p1) by auto. apply sqrt_le_1_alt. lra. }
  assert (G2 : exists h, root_or None (energy max_3 (mass (rs 3%nat)) - E0 - E1) (mass (rs 2%nat)) = Some h /\ p2 <= h).
  { unfold root_or. pose proof (energy_sq p2 (mass (rs 2%nat))) as Q. fold E2 in Q. pose proof (pow2_ge_0 p2).
    set (e := energy max_3 (mass (rs 3%nat)) - E0 - E1) in *. assert (E2 < e) by (unfold e; lra).
    destruct (Rle_dec e 0); [lra|]. assert (p2 ^ 2 < e ^ 2 - mass (rs 2%nat) ^ 2) by nra.
    destruct (Rle_dec (e ^ 2 - mass (rs 2%nat) ^ 2) 0); [lra|]. eexists; split; [reflexivity|].
    rewrite <- (sqrt_pow2 p2) by auto. apply sqrt_le_1_alt. lra. }
  destruct G1 as (h1 & G1 & L1). destruct G2 as (h2 & G2 & L2). rewrite G1, G2.
  eexists. split; [reflexivity|]. split; [exists 0, h1; auto|].
  destruct (root_or_min p2 (mass (rs 2%nat)) (mass (rs 3%nat) - E0 - E1) H2) as (l & EL & LL); [fold E2; lra|].
  eexists. split; [reflexivity|]. exists l, h2. auto.
Qed.

(* two-body limits of the scattering branch at p0 = 0 *)
Lemma sqrt_mult_sq E L : 0 <= E -> 0 <= L -> sqrt (E ^ 2 * L) = E * sqrt L.
Proof. intros. rewrite sqrt_mult by (auto; apply pow2_ge_0). now rewrite sqrt_pow2. Qed.

Lemma inner_scat m p0 p1 p2 : (forall n, 0 <= m n) -> 0 <= p0 -> 0 <= p1 -> 0 <= p2 ->
  let E3 := energy p0 (m 0%nat) + energy p1 (m 1%nat) - energy p2 (m 2%nat) in
  m 3%nat <= E3 -> polygon4 p0 p1 p2 (sqrt (E3 ^ 2 - m 3%nat ^ 2)) -> within (p2_min_scat m p0 p1) (p2_max_scat m p0 p1) p2.
Proof.
  intros Hm H0 H1 H2 E3 HE HP. unfold p2_min_scat, p2_max_scat. cbv beta iota.
  pose proof (Hm 0%nat) as M0. pose proof (Hm 1%nat) as M1. pose proof (Hm 2%nat) as M2. pose proof (Hm 3%nat) as M3.
  pose proof (energy_nonneg p2 (m 2%nat)) as N2. pose proof (energy_nonneg p1 (m 1%nat)) as N1. pose proof (energy_ge_m p2 (m 2%nat)) as G2.
  destruct (Req_EM_T p0 0) as [->|Np].
  2: { destruct (csqrt_ge p2 (m 2%nat) (energy p0 (m 0%nat) + energy p1 (m 1%nat) - m 3%nat) H2) as (h & Eh & Lh); try (unfold E3 in HE; lra).
       exists 0, h. rewrite Eh. auto. }
  assert (HT : triangle p1 p2 (sqrt (E3 ^ 2 - m 3%nat ^ 2))) by (unfold polygon4, triangle in *; lra). clear HP.
  unfold E3 in *. clear E3. rewrite energy_rest in * by auto.
  set (E := m 0%nat + energy p1 (m 1%nat)) in *. set (e := energy p2 (m 2%nat)) in *.
  assert (He2 : e ^ 2 = p2 ^ 2 + m 2%nat ^ 2) by apply energy_sq.
  pose proof (energy_sq p1 (m 1%nat)) as HE1. pose proof (energy_ge p1 (m 1%nat) H1) as HE1'.
  assert (HK : 0 <= (E - e) ^ 2 - m 3%nat ^ 2) by nra.
  apply triangle_sq in HT; auto.
  set (A := E ^ 2 - p1 ^ 2 + m 2%nat ^ 2 - m 3%nat ^ 2).
  assert (HT' : - (2 * p1 * p2) <= A - 2 * E * e <= 2 * p1 * p2) by (unfold A; nra). clear HT.
  assert (HEp : 0 <= E) by (unfold E; lra).
  destruct (Req_EM_T (m 0%nat) 0) as [Z0|NZ0].
  - destruct (Req_EM_T (m 1%nat) 0) as [Z1|NZ1].
    + exists 0, p1. split; [reflexivity|]. split; [reflexivity|]. split; [auto|].
      assert (E = p1). { unfold E. rewrite Z0, Z1, energy_zero by auto. ring. }
      assert (p2 <= e) by (now apply energy_ge). lra.
    + assert (Hs : 0 < m 1%nat ^ 2) by nra.
      assert (HEe : E = energy p1 (m 1%nat)) by (unfold E; lra).
      assert (HS : m 1%nat ^ 2 = E ^ 2 - p1 ^ 2) by (rewrite HEe; lra).
      destruct (two_body_fwd A E p1 p2 e (m 2%nat) (m 1%nat ^ 2) H1 H2 N2 HEp He2 HS Hs HT') as (PA & PL & (B1 & B2) & B3).
      assert (HA : A = m 1%nat ^ 2 + m 2%nat ^ 2 - m 3%nat ^ 2) by (unfold A; rewrite HEe; lra).
      assert (HR : sqrt (scat_temp m p1) = E * sqrt (A ^ 2 - 4 * m 1%nat ^ 2 * m 2%nat ^ 2)).
      { unfold scat_temp.
        replace ((p1 ^ 2 + m 1%nat ^ 2) * (m 1%nat ^ 4 + (m 2%nat ^ 2 - m 3%nat ^ 2) ^ 2 - 2 * m 1%nat ^ 2 * (m 2%nat ^ 2 + m 3%nat ^ 2)))
          with (E ^ 2 * (A ^ 2 - 4 * m 1%nat ^ 2 * m 2%nat ^ 2)).
        - destruct (Rlt_dec _ 0) as [X|X]; [exfalso; pose proof (pow2_ge_0 E); nra|]. now apply sqrt_mult_sq.
        - rewrite HA, HEe. rewrite HE1. ring. }
      rewrite HR, <- HA. set (r := E * sqrt (A ^ 2 - 4 * m 1%nat ^ 2 * m 2%nat ^ 2)) in *.
      eexists _, _. split; [reflexivity|]. split; [reflexivity|]. split.
      * apply Rmax_lub.
        -- apply Rmult_le_reg_r with (2 * m 1%nat ^ 2); [lra|]. unfold Rdiv. rewrite Rmult_assoc, Rinv_l by lra. lra.
        -- apply Ropp_le_cancel. rewrite Ropp_involutive. apply Rmult_le_reg_r with (2 * m 1%nat ^ 2); [lra|].
           unfold Rdiv. rewrite Rmult_assoc, Rinv_l by lra. lra.
      * apply Rmult_le_reg_r with (2 * m 1%nat ^ 2); [lra|]. unfold Rdiv. rewrite Rmult_assoc, Rinv_l by lra. lra.
  - destruct (all_zero (m 1%nat) (m 2%nat) (m 3%nat)) eqn:AZ.
    + unfold all_zero in AZ. destruct (Req_EM_T (m 1%nat) 0) as [Z1|]; [|discriminate]. destruct (Req_EM_T (m 2%nat) 0) as [Z2|]; [|discriminate].
      destruct (Req_EM_T (m 3%nat) 0) as [Z3|]; [|discriminate].
      exists (m 0%nat / 2), ((m 0%nat + 2 * p1) / 2). split; [reflexivity|]. split; [reflexivity|].
      assert (EE : E = m 0%nat + p1) by (unfold E; rewrite Z1, energy_zero by auto; ring).
      assert (ee : e = p2) by (unfold e; rewrite Z2, energy_zero by auto; ring).
      unfold A in HT'. rewrite Z2, Z3, EE, ee in HT'.
      assert (0 < m 0%nat) by lra. destruct HT' as (T1 & T2). split; nra.
    + destruct (Rlt_dec (m 2%nat + m 3%nat) (m 0%nat + m 1%nat)) as [Hlt|Hge].
      * assert (Hs : 0 < E ^ 2 - p1 ^ 2) by (unfold E; nra).
        destruct (two_body_fwd A E p1 p2 e (m 2%nat) _ H1 H2 N2 HEp He2 eq_refl Hs HT') as (PA & PL & (B1 & B2) & B3).
        assert (HEsq : m 0%nat + sqrt (m 1%nat ^ 2 + p1 ^ 2) = E).
        { unfold E, energy. now rewrite (Rplus_comm (p1 ^ 2)). }
        assert (HR : scat_root m p1 = Some (E * sqrt (A ^ 2 - 4 * (E ^ 2 - p1 ^ 2) * m 2%nat ^ 2))).
        { unfold scat_root. cbv zeta. rewrite HEsq. unfold csqrt.
          match goal with |- context [Rlt_dec ?x 0] => replace x with (E ^ 2 * (A ^ 2 - 4 * (E ^ 2 - p1 ^ 2) * m 2%nat ^ 2)) by (unfold A; ring) end.
          destruct (Rlt_dec _ 0) as [X|X]; [exfalso; pose proof (pow2_ge_0 E); nra|]. f_equal. now apply sqrt_mult_sq. }
        rewrite HEsq, HR. cbn [option_map omax0]. set (r := E * sqrt _) in *.
        eexists _, _. split; [reflexivity|]. split; [reflexivity|]. split.
        -- apply Rmax_lub; [|exact H2]. apply Rmult_le_reg_r with (2 * (E ^ 2 - p1 ^ 2)); [lra|]. unfold Rdiv. rewrite Rmult_assoc, Rinv_l by lra.
           unfold A in *. lra.
        -- eapply Rle_trans; [|apply Rmax_l]. apply Rmult_le_reg_r with (2 * (E ^ 2 - p1 ^ 2)); [lra|]. unfold Rdiv. rewrite Rmult_assoc, Rinv_l by lra.
           unfold A in *. lra.
      * destruct (csqrt_ge p2 (m 2%nat) (m 0%nat - m 3%nat + energy p1 (m 1%nat)) H2) as (h & Eh & Lh); [unfold E in *; lra|unfold E in *; fold e; lra|].
        exists 0, h. rewrite Eh. auto.
Qed.

Lemma cover_scattering rs st lim2 max_1 max_3 p0 p1 p2 : masses_ok rs -> sides_are rs (-1) (-1) 1 1 ->
  0 <= p0 -> 0 <= p1 -> 0 <= p2 -> snd st = Some max_1 -> p1 <= max_1 -> allowed4 rs p0 p1 p2 -> covered rs st lim2 max_3 p0 p1 p2.
Proof.
  intros Hm Hs H0 H1 H2 Hst Hmax (HE & HP). unfold covered, p1_step, p2_limits. rewrite (side_sum4 _ _ _ _ _ Hs).
  destruct Hs as (S0 & S1 & S2 & S3).
  assert (HEv : E3_of rs p0 p1 p2 = energy p0 (mass (rs 0%nat)) + energy p1 (mass (rs 1%nat)) - energy p2 (mass (rs 2%nat))).
  { unfold E3_of. rewrite S0, S1, S2, S3. ring. }
  unfold p3_of in HP. rewrite HEv in *.
  destruct st as [a b]. cbn [snd] in Hst. subst b.
  cbn -[energy csqrt pow root_or p2_min_scat p2_max_scat]. unfold masses_of.
  pose proof (energy_ge_m p2 (mass (rs 2%nat))).
  destruct (root_or_min p1 (mass (rs 1%nat)) (mass (rs 2%nat) + mass (rs 3%nat) - energy p0 (mass (rs 0%nat))) H1) as (l & EL & LL); [lra|].
  rewrite EL. eexists. split; [reflexivity|]. cbn [fst snd]. split.
  - destruct (Rlt_dec (3 * l) max_1); [exists l, max_1; auto|]. exists l, (3 * l). repeat split; auto. lra.
  - eexists. split; [reflexivity|]. cbn [fst snd]. apply (inner_scat (fun n => mass (rs n))); auto.
Qed.
