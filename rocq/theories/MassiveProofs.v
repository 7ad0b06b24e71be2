(* Kinematics of the decay at rest into massive products *)
From Coq Require Import Reals Lra Psatz.
From Coquelicot Require Import Coquelicot.
From Verif Require Import Base FunctionalModel DsModel BoundsModel BoundsProofs Integrate4Model ScaleProofs Decay4Proofs DalitzSpec DalitzProofs MassiveSpec.
Open Scope R_scope.

Lemma sqr_le x y : 0 <= y -> x ^ 2 <= y ^ 2 -> x <= y.
Proof. intros H L. apply Rsqr_incr_0_var; [unfold Rsqr; nra|exact H]. Qed.
Lemma sqr_lt x y : 0 <= y -> x ^ 2 < y ^ 2 -> x < y.
Proof. intros H L. apply Rnot_le_lt. intros C. assert (y ^ 2 <= x ^ 2) by (apply pow_incr; lra). lra. Qed.
Lemma abs_sqr_lt x y : 0 <= y -> x ^ 2 < y ^ 2 -> - y < x < y.
Proof. intros H L. split; [|now apply sqr_lt]. assert (- x < y); [|lra]. apply sqr_lt; [exact H|]. replace ((- x) ^ 2) with (x ^ 2) by ring. exact L. Qed.
Lemma abs_sqr_le x y : - y <= x <= y -> x ^ 2 <= y ^ 2.
Proof. intros [A B]. nra. Qed.

(* triangles by the law of cosines *)
Lemma tri_strict a b c : 0 < a -> 0 < b -> 0 <= c -> (c ^ 2 - a ^ 2 - b ^ 2) ^ 2 < (2 * a * b) ^ 2 -> tri a b c.
Proof.
  intros Ha Hb Hc H. apply abs_sqr_lt in H; [|nra]. destruct H as [A B].
  assert ((a - b) ^ 2 < c ^ 2) by nra. assert (c ^ 2 < (a + b) ^ 2) by nra.
  apply abs_sqr_lt in H; [|exact Hc]. apply sqr_lt in H0; [|lra]. unfold tri. lra.
Qed.
Lemma tri_weak a b c : 0 <= a -> 0 <= b -> 0 <= c -> a <= b + c -> b <= a + c -> c <= a + b -> (c ^ 2 - a ^ 2 - b ^ 2) ^ 2 <= (2 * a * b) ^ 2.
Proof.
  intros Ha Hb Hc A B C. apply abs_sqr_le.
  assert (c ^ 2 <= (a + b) ^ 2) by (apply pow_incr; lra).
  assert ((a - b) ^ 2 <= c ^ 2) by (apply abs_sqr_le; lra). split; nra.
Qed.

(* the pair of products 2 and 3: energy ep, momentum u, squared mass s *)
Section pair.
Variables ep u m2 m3 : R.
Hypothesis (H2 : 0 <= m2) (H3 : 0 <= m3) (Hu : 0 <= u) (He : 0 < ep).
Let s := ep ^ 2 - u ^ 2.
Let lam := kallen s (m2 ^ 2) (m3 ^ 2).
Let mid := ep * (s + m2 ^ 2 - m3 ^ 2) / (2 * s).
Let half := u * sqrt lam / (2 * s).
Hypothesis (Hs : 0 < s) (Ht : (m2 + m3) ^ 2 <= s).

Lemma lam_pos : 0 <= lam.
Proof. unfold lam. rewrite kallen_second. assert ((m2 - m3) ^ 2 <= (m2 + m3) ^ 2) by nra. apply Rmult_le_pos; lra. Qed.
Lemma half_pos : 0 <= half.
Proof. unfold half. apply Rmult_le_pos; [apply Rmult_le_pos; [exact Hu|apply sqrt_pos]|]. left. apply Rinv_0_lt_compat. lra. Qed.
Lemma ep_u : u < ep.
Proof. apply sqr_lt; [lra|]. unfold s in Hs. lra. Qed.
Lemma quad e : (s + m2 ^ 2 - m3 ^ 2 - 2 * ep * e) ^ 2 - 4 * u ^ 2 * (e ^ 2 - m2 ^ 2) = 4 * s * ((e - mid) ^ 2 - half ^ 2).
Proof.
  assert (L : sqrt lam ^ 2 = lam) by (apply pow2_sqrt, lam_pos).
  assert (E : 4 * s * half ^ 2 = u ^ 2 * lam / s) by (replace (half ^ 2) with (u ^ 2 * sqrt lam ^ 2 / (4 * s ^ 2)) by (unfold half; field; lra); rewrite L; field; lra).
  replace (4 * s * ((e - mid) ^ 2 - half ^ 2)) with (4 * s * (e - mid) ^ 2 - 4 * s * half ^ 2) by ring. rewrite E. clear E L.
  unfold mid, lam, kallen. assert (E : ep ^ 2 = s + u ^ 2) by (unfold s; ring). revert E. generalize s, Hs. intros s' Hs' E.
  replace (4 * s' * (e - ep * (s' + m2 ^ 2 - m3 ^ 2) / (2 * s')) ^ 2) with (4 * s' * e ^ 2 - 4 * ep * e * (s' + m2 ^ 2 - m3 ^ 2) + ep ^ 2 * (s' + m2 ^ 2 - m3 ^ 2) ^ 2 / s') by (field; lra).
  replace ((s' + m2 ^ 2 - m3 ^ 2 - 2 * ep * e) ^ 2) with ((s' + m2 ^ 2 - m3 ^ 2) ^ 2 - 4 * ep * e * (s' + m2 ^ 2 - m3 ^ 2) + 4 * ep ^ 2 * e ^ 2) by ring.
  rewrite E. field. lra.
Qed.
Lemma root_at e : (e - mid) ^ 2 = half ^ 2 -> (s + m2 ^ 2 - m3 ^ 2 - 2 * ep * e) ^ 2 = 4 * u ^ 2 * (e ^ 2 - m2 ^ 2).
Proof. intros H. pose proof (quad e) as Q. rewrite H in Q. lra. Qed.
Lemma lo_pos : 0 <= mid - half.
Proof.
  pose proof ep_u as HU. pose proof lam_pos as HL. assert (X : 0 <= s + m2 ^ 2 - m3 ^ 2) by nra.
  replace (mid - half) with ((ep * (s + m2 ^ 2 - m3 ^ 2) - u * sqrt lam) / (2 * s)) by (unfold mid, half; field; lra).
  apply Rmult_le_pos; [|left; apply Rinv_0_lt_compat; lra].
  assert (sqrt lam <= s + m2 ^ 2 - m3 ^ 2).
  { apply sqr_le; [exact X|]. rewrite pow2_sqrt by exact HL. unfold lam, kallen. pose proof (pow2_ge_0 m2). nra. }
  pose proof (sqrt_pos lam). nra.
Qed.
Lemma hi_pos : mid + half <= ep.
Proof.
  pose proof ep_u as HU. pose proof lam_pos as HL. assert (X : 0 <= s - m2 ^ 2 + m3 ^ 2) by nra.
  apply Rminus_le_0. replace (ep - (mid + half)) with ((ep * (s - m2 ^ 2 + m3 ^ 2) - u * sqrt lam) / (2 * s)) by (unfold mid, half; field; lra).
  apply Rmult_le_pos; [|left; apply Rinv_0_lt_compat; lra].
  assert (sqrt lam <= s - m2 ^ 2 + m3 ^ 2).
  { apply sqr_le; [exact X|]. rewrite pow2_sqrt by exact HL. unfold lam, kallen. pose proof (pow2_ge_0 m3). nra. }
  pose proof (sqrt_pos lam). nra.
Qed.
Lemma lo_range : m2 <= mid - half.
Proof.
  apply sqr_le; [exact lo_pos|]. pose proof (root_at (mid - half) ltac:(ring)) as R. pose proof lo_pos as LP.
  pose proof (pow2_ge_0 (s + m2 ^ 2 - m3 ^ 2 - 2 * ep * (mid - half))) as P. rewrite R in P.
  destruct (Req_dec u 0) as [Z|N].
  - (* all of it at one energy *)
    assert (half = 0) by (unfold half; rewrite Z; unfold Rdiv; ring). rewrite H, Rminus_0_r. unfold mid.
    assert (S2 : s = ep ^ 2) by (unfold s; rewrite Z; ring).
    replace (ep * (s + m2 ^ 2 - m3 ^ 2) / (2 * s)) with ((s + m2 ^ 2 - m3 ^ 2) / (2 * ep)) by (rewrite S2; field; lra).
    apply pow_incr. split; [exact H2|]. assert (E2 : 0 < 2 * ep) by lra. apply (proj1 (Rle_div_r _ _ _ E2)).
    assert (m2 + m3 <= ep) by (apply sqr_le; lra). rewrite S2. nra.
  - assert (0 < u ^ 2) by (apply pow2_gt_0; exact N). nra.
Qed.
Lemma hi_range : mid + half <= ep - m3.
Proof.
  assert (m3 <= ep - (mid + half)); [|lra]. apply sqr_le; [pose proof hi_pos; lra|].
  pose proof (root_at (mid + half) ltac:(ring)) as R. set (e := mid + half) in *.
  assert (P3 : (ep - e) ^ 2 - m3 ^ 2 = (s + m2 ^ 2 - m3 ^ 2 - 2 * ep * e) + u ^ 2 + (e ^ 2 - m2 ^ 2)) by (unfold s; ring).
  pose proof lo_range. pose proof half_pos.
  assert (Q : 0 <= e ^ 2 - m2 ^ 2) by (assert (m2 <= e) by (unfold e; lra); assert (m2 ^ 2 <= e ^ 2) by (apply pow_incr; lra); lra).
  set (q := sqrt (e ^ 2 - m2 ^ 2)). assert (Eq : q ^ 2 = e ^ 2 - m2 ^ 2) by (now apply pow2_sqrt). assert (0 <= q) by apply sqrt_pos.
  rewrite <- Eq in R, P3. set (c := s + m2 ^ 2 - m3 ^ 2 - 2 * ep * e) in *.
  assert (- (2 * u * q) <= c). { assert (- c <= 2 * u * q); [|lra]. apply sqr_le; [apply Rmult_le_pos; lra|]. replace ((- c) ^ 2) with (c ^ 2) by ring. rewrite R. right. ring. }
  pose proof (pow2_ge_0 (u - q)). nra.
Qed.

(* momenta of the two products at energy e of the first *)
Lemma cosine e : m2 <= e -> m3 <= ep - e ->
  ((sqrt ((ep - e) ^ 2 - m3 ^ 2)) ^ 2 - u ^ 2 - (sqrt (e ^ 2 - m2 ^ 2)) ^ 2) ^ 2 - (2 * u * sqrt (e ^ 2 - m2 ^ 2)) ^ 2 = 4 * s * ((e - mid) ^ 2 - half ^ 2).
Proof.
  intros A B. assert (m2 ^ 2 <= e ^ 2) by (apply pow_incr; lra). assert (m3 ^ 2 <= (ep - e) ^ 2) by (apply pow_incr; lra).
  rewrite Rpow_mult_distr, !pow2_sqrt by lra. rewrite <- quad. unfold s. ring.
Qed.
Lemma inside e : 0 < u -> mid - half < e < mid + half -> m2 < e /\ e < ep - m3 /\ tri u (sqrt (e ^ 2 - m2 ^ 2)) (sqrt ((ep - e) ^ 2 - m3 ^ 2)).
Proof.
  intros HU [A B]. pose proof lo_range. pose proof hi_range. split; [lra|]. split; [lra|].
  assert (m2 ^ 2 < e ^ 2) by nra.
  apply tri_strict; [exact HU|apply sqrt_lt_R0; lra|apply sqrt_pos|].
  pose proof (cosine e ltac:(lra) ltac:(lra)) as C.
  assert ((e - mid) ^ 2 < half ^ 2) by nra. assert (4 * s * ((e - mid) ^ 2 - half ^ 2) < 0) by nra. lra.
Qed.
Lemma outside e : m2 <= e -> m3 <= ep - e -> e < mid - half \/ mid + half < e ->
  ~ (u <= sqrt (e ^ 2 - m2 ^ 2) + sqrt ((ep - e) ^ 2 - m3 ^ 2) /\ sqrt (e ^ 2 - m2 ^ 2) <= u + sqrt ((ep - e) ^ 2 - m3 ^ 2) /\ sqrt ((ep - e) ^ 2 - m3 ^ 2) <= u + sqrt (e ^ 2 - m2 ^ 2)).
Proof.
  intros A B D (T1 & T2 & T3). pose proof (cosine e A B) as C. pose proof half_pos as HP.
  pose proof (tri_weak u _ _ Hu (sqrt_pos (e ^ 2 - m2 ^ 2)) (sqrt_pos ((ep - e) ^ 2 - m3 ^ 2)) T1 T2 T3) as W.
  assert (half ^ 2 < (e - mid) ^ 2) by (destruct D; nra). assert (0 < 4 * s * ((e - mid) ^ 2 - half ^ 2)) by (apply Rmult_lt_0_compat; lra). lra.
Qed.
End pair.

(* two particles never have less than the sum of their masses *)
Lemma below_threshold ep u m2 m3 e : 0 <= m2 -> 0 <= m3 -> 0 <= u -> m2 <= e -> m3 <= ep - e -> ep ^ 2 - u ^ 2 < (m2 + m3) ^ 2 ->
  ~ u <= sqrt (e ^ 2 - m2 ^ 2) + sqrt ((ep - e) ^ 2 - m3 ^ 2).
Proof.
  intros H2 H3 Hu A B H T. assert (m2 ^ 2 <= e ^ 2) by (apply pow_incr; lra). assert (m3 ^ 2 <= (ep - e) ^ 2) by (apply pow_incr; lra).
  set (p := sqrt (e ^ 2 - m2 ^ 2)) in *. set (q := sqrt ((ep - e) ^ 2 - m3 ^ 2)) in *.
  assert (P : p ^ 2 = e ^ 2 - m2 ^ 2) by (apply pow2_sqrt; lra). assert (Q : q ^ 2 = (ep - e) ^ 2 - m3 ^ 2) by (apply pow2_sqrt; lra).
  assert (0 <= p) by apply sqrt_pos. assert (0 <= q) by apply sqrt_pos.
  assert (u ^ 2 <= (p + q) ^ 2) by (apply pow_incr; lra).
  set (f := ep - e) in *. replace ep with (e + f) in H by (unfold f; ring).
  assert (D : (m2 * m3 + p * q) ^ 2 <= (e * f) ^ 2).
  { replace ((e * f) ^ 2) with ((p ^ 2 + m2 ^ 2) * (q ^ 2 + m3 ^ 2)) by (rewrite P, Q; ring). pose proof (pow2_ge_0 (p * m3 - q * m2)). nra. }
  apply sqr_le in D; [|apply Rmult_le_pos; lra]. nra.
Qed.
