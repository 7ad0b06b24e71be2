From Coq Require Import Reals Lra Psatz.
From Verif Require Import Base EvolveModel ParamsModel ParamsProofs GridsModel GridsProofs KinemModel.
Open Scope R_scope.

(* ---------- two-body momentum ---------- *)
Definition lam (m1 m2 m3 : R) : R := (m1 ^ 2 - m2 ^ 2 - m3 ^ 2) ^ 2 - (2 * m2 * m3) ^ 2.
Lemma lam_factor m1 m2 m3 : lam m1 m2 m3 = (m1 ^ 2 - (m2 + m3) ^ 2) * (m1 ^ 2 - (m2 - m3) ^ 2).
Proof. unfold lam. ring. Qed.
Lemma lam_nonneg m1 m2 m3 : 0 <= m2 -> 0 <= m3 -> m2 + m3 <= m1 -> 0 <= lam m1 m2 m3.
Proof. intros H2 H3 H. rewrite lam_factor. apply Rmult_le_pos; nra. Qed.
Lemma lam_neg m1 m2 m3 : 0 < m1 -> 0 <= m2 -> 0 <= m3 -> Rabs (m2 - m3) < m1 -> m1 < m2 + m3 -> lam m1 m2 m3 < 0.
Proof.
  intros H1 H2 H3 HA H. rewrite lam_factor. assert (HB : (m2 - m3) ^ 2 < m1 ^ 2) by (unfold Rabs in HA; destruct (Rcase_abs _); nra).
  assert (m1 ^ 2 < (m2 + m3) ^ 2) by nra. nra.
Qed.
Lemma lam_sym m1 m2 m3 : lam m1 m2 m3 = lam m1 m3 m2.
Proof. unfold lam. ring. Qed.

Lemma cm_Fin m1 m2 m3 : m1 <> 0 -> 0 <= lam m1 m2 m3 -> cm_momentum m1 m2 m3 = Fin (sqrt (lam m1 m2 m3) / (2 * m1)).
Proof.
  intros H1 HL. unfold cm_momentum, nsqrt. fold (lam m1 m2 m3). destruct (Rlt_dec _ 0); [lra|]. unfold ndiv. destruct (Req_EM_T _ 0); [lra|reflexivity].
Qed.
Lemma cm_NaN m1 m2 m3 : lam m1 m2 m3 < 0 -> cm_momentum m1 m2 m3 = NaN.
Proof. intros HL. unfold cm_momentum, nsqrt. fold (lam m1 m2 m3). destruct (Rlt_dec _ 0); [reflexivity|lra]. Qed.

Lemma cm_energy m1 m2 m3 p : 0 < m1 -> 0 <= lam m1 m2 m3 -> p = sqrt (lam m1 m2 m3) / (2 * m1) ->
  p ^ 2 + m2 ^ 2 = ((m1 ^ 2 + m2 ^ 2 - m3 ^ 2) / (2 * m1)) ^ 2.
Proof.
  intros H1 HL ->. replace ((sqrt (lam m1 m2 m3) / (2 * m1)) ^ 2) with (sqrt (lam m1 m2 m3) ^ 2 / (2 * m1) ^ 2) by (field; lra).
  rewrite pow2_sqrt by auto. unfold lam. field. lra.
Qed.
Lemma sqrt_sq x : 0 <= x -> sqrt (x ^ 2) = x.
Proof. intros H. replace (x ^ 2) with (Rsqr x) by (unfold Rsqr; ring). now apply sqrt_Rsqr. Qed.
Lemma cm_conserves m1 m2 m3 p : 0 < m1 -> 0 <= m2 -> 0 <= m3 -> m2 + m3 <= m1 -> p = sqrt (lam m1 m2 m3) / (2 * m1) ->
  0 <= p /\ sqrt (p ^ 2 + m2 ^ 2) + sqrt (p ^ 2 + m3 ^ 2) = m1.
Proof.
  intros H1 H2 H3 H Hp. pose proof (lam_nonneg m1 m2 m3 H2 H3 H) as HL. split.
  - subst p. apply Rmult_le_pos; [apply sqrt_pos|]. apply Rlt_le, Rinv_0_lt_compat. lra.
  - rewrite (cm_energy m1 m2 m3 p) by auto. rewrite (cm_energy m1 m3 m2 p); [|auto|now rewrite lam_sym|now rewrite lam_sym].
    assert (I : 0 < / (2 * m1)) by (apply Rinv_0_lt_compat; lra).
    rewrite !sqrt_sq; [field; lra| |]; apply Rmult_le_pos; try lra; nra.
Qed.

(* ---------- cut-offs ---------- *)
Lemma skipn_add {A} a : forall b (l : list A), skipn a (skipn b l) = skipn (b + a) l.
Proof. induction b as [|b IH]; intros l; [reflexivity|]. destruct l; [now rewrite !skipn_nil|]. cbn. apply IH. Qed.
Lemma sslx_le g x : (ssl g x <= length g)%nat.
Proof. destruct x; cbn; auto using ssl_le; lia. Qed.
Lemma ssrx_le g x : (ssr g x <= length g)%nat.
Proof. destruct x; cbn; auto using ssr_le; lia. Qed.
(* comparison of a number with an extended bound, NaN counting as +inf *)
Definition below_bound (y : R) (x : xr) : Prop := match x with Fin r => y <= r | NInf => False | _ => True end.
Definition above_bound (y : R) (x : xr) : Prop := match x with Fin r => r <= y | NInf => True | _ => False end.

Lemma slices_4p_split g ub : let (s, pad) := slices_4p g ub in
  exists rest, g = s ++ rest /\ length rest = pad /\ (g <> [] -> s <> []).
Proof.
  unfold slices_4p. set (u := Nat.min _ _). exists (skipn (u + 1) g). split; [now rewrite firstn_skipn|]. split.
  - rewrite skipn_length. lia.
  - intros H. destruct g as [|y g]; [congruence|]. replace (u + 1)%nat with (S u) by lia. cbn. discriminate.
Qed.
Lemma incr_le g i j : incr g -> (i <= j)%nat -> (j < length g)%nat -> rnth g i <= rnth g j.
Proof. intros H Hij Hj. destruct (Nat.eq_dec i j) as [->|]; [lra|]. apply Rlt_le, H; lia. Qed.
Lemma slices_4p_cover g ub k : incr g -> (k < length g)%nat -> below_bound (rnth g k) ub -> (k < length (fst (slices_4p g ub)))%nat.
Proof.
  intros Hg Hk HB. unfold slices_4p. cbn [fst]. rewrite firstn_length. apply Nat.min_glb_lt; [|auto].
  destruct ub as [r| | |]; cbn in HB |- *; try lia.
  destruct (Nat.le_gt_cases k (searchsorted_left g r)) as [H|H]; [lia|]. exfalso.
  pose proof (ssl_at g r ltac:(lia)). pose proof (Hg (searchsorted_left g r) k ltac:(lia) ltac:(lia)). lra.
Qed.
Lemma slices_4p_beyond g ub k : incr g -> (k < length g)%nat -> (length (fst (slices_4p g ub)) <= k)%nat -> ~ below_bound (rnth g k) ub.
Proof. intros Hg Hk HL HB. pose proof (slices_4p_cover g ub k Hg Hk HB). lia. Qed.

Lemma slices_3p_shape g lo hi a b c : slices_3p g lo hi = (a, b, c) -> b <> [] ->
  exists pre post, g = pre ++ b ++ post /\ length pre = a /\ length post = c.
Proof.
  unfold slices_3p. set (l := (ssr g lo - 1)%nat). set (u := Nat.min (length g - 1) (ssl g hi)). intros E HB. injection E as <- <- <-.
  destruct (Nat.eqb_spec l u) as [|HN]; [congruence|].
  assert (HL : (l <= length g)%nat) by (unfold l; pose proof (ssrx_le g lo); lia).
  assert (Hlu : (l < u + 1)%nat).
  { destruct (Nat.le_gt_cases (u + 1) l) as [H|H]; [|lia]. exfalso. apply HB. replace (u + 1 - l)%nat with 0%nat by lia. reflexivity. }
  assert (Hu : (u < length g)%nat) by (destruct g; [cbn in *; lia|unfold u; cbn; lia]).
  exists (firstn l g), (skipn (u + 1) g). split; [|split].
  - rewrite <- (firstn_skipn l g) at 1. f_equal. rewrite <- (firstn_skipn (u + 1 - l) (skipn l g)) at 1. f_equal. rewrite skipn_add. f_equal. lia.
  - rewrite firstn_length. reflexivity.
  - rewrite skipn_length. lia.
Qed.
Lemma cutoff_3p_shape g lo hi a b c : cutoff_3p g lo hi = Some (a, b, c) ->
  (a + length b + c = length g)%nat /\ exists pre post, g = pre ++ b ++ post /\ length pre = a /\ length post = c.
Proof.
  unfold cutoff_3p. destruct (slices_3p g lo hi) as [[a' b'] c'] eqn:E. destruct (existsb _ b') eqn:EX; [|discriminate]. intros H. injection H as <- <- <-.
  assert (HB : b' <> []) by (intros ->; discriminate). destruct (slices_3p_shape _ _ _ _ _ _ E HB) as (pre & post & HG & H1 & H2).
  split; [rewrite HG, !app_length; lia|]. now exists pre, post.
Qed.
(* comparison with an extended lower bound: strictly above, at or above *)
Definition gt_lo (y : R) (x : xr) : Prop := match x with Fin r => r < y | NInf => True | _ => False end.
Definition lt_hi (y : R) (x : xr) : Prop := match x with Fin r => y < r | NInf => False | _ => True end.
Lemma lo_l g lo k : incr g -> (k < length g)%nat -> above_bound (rnth g k) lo -> (ssr g lo - 1 <= k)%nat.
Proof.
  intros Hg Hk H. destruct lo as [r| | |]; cbn in *; try tauto; [|lia].
  destruct (Nat.le_gt_cases (searchsorted_right g r) (k + 1)) as [H1|H1]; [lia|].
  pose proof (ssr_below g r (k + 1)%nat H1). pose proof (ssr_le g r). pose proof (Hg k (k + 1)%nat ltac:(lia) ltac:(lia)). lra.
Qed.
Lemma lo_l_strict g lo k : (k < length g)%nat -> gt_lo (rnth g k) lo -> (ssr g lo <= k)%nat.
Proof.
  intros Hk H. destruct lo as [r| | |]; cbn in *; try tauto; [|lia].
  destruct (Nat.le_gt_cases (searchsorted_right g r) k) as [H1|H1]; [lia|]. pose proof (ssr_below g r k H1). lra.
Qed.
Lemma hi_u g hi k : incr g -> (k < length g)%nat -> below_bound (rnth g k) hi -> (k <= ssl g hi)%nat.
Proof.
  intros Hg Hk H. destruct hi as [r| | |]; cbn in *; try tauto; try lia.
  destruct (Nat.le_gt_cases k (searchsorted_left g r)) as [H1|H1]; [lia|]. exfalso.
  pose proof (ssl_at g r ltac:(lia)). pose proof (Hg (searchsorted_left g r) k ltac:(lia) ltac:(lia)). lra.
Qed.
Lemma hi_u_strict g hi k : incr g -> (k < length g)%nat -> lt_hi (rnth g k) hi -> (k < ssl g hi)%nat.
Proof.
  intros Hg Hk H. destruct hi as [r| | |]; cbn in *; try tauto; try lia.
  destruct (Nat.le_gt_cases (S k) (searchsorted_left g r)) as [H1|H1]; [lia|]. exfalso.
  pose proof (ssl_at g r ltac:(lia)). pose proof (incr_le g (searchsorted_left g r) k Hg ltac:(lia) ltac:(lia)). lra.
Qed.
(* the block computed, when the integral is not skipped *)
Lemma cutoff_3p_in g lo hi a b c k : incr g -> cutoff_3p g lo hi = Some (a, b, c) -> (k < length g)%nat ->
  above_bound (rnth g k) lo -> below_bound (rnth g k) hi -> (a <= k < a + length b)%nat.
Proof.
  intros Hg HC Hk H1 H2. unfold cutoff_3p, slices_3p in HC. destruct (existsb _ _) eqn:EX; [|discriminate]. injection HC as <- <- <-.
  pose proof (lo_l g lo k Hg Hk H1). pose proof (hi_u g hi k Hg Hk H2). pose proof (ssrx_le g lo).
  destruct (Nat.eqb_spec (ssr g lo - 1) (Nat.min (length g - 1) (ssl g hi))) as [|]; [discriminate|].
  rewrite firstn_length, skipn_length. lia.
Qed.
(* a strictly interior point of the block is inside the bounds *)
Lemma cutoff_3p_only g lo hi a b c k : incr g -> cutoff_3p g lo hi = Some (a, b, c) ->
  (a < k)%nat -> (k + 1 < a + length b)%nat -> gt_lo (rnth g k) lo /\ lt_hi (rnth g k) hi.
Proof.
  intros Hg HC H1 H2. unfold cutoff_3p, slices_3p in HC. destruct (existsb _ _) eqn:EX; [|discriminate]. injection HC as <- <- <-.
  pose proof (ssrx_le g lo). pose proof (sslx_le g hi).
  destruct (Nat.eqb_spec (ssr g lo - 1) (Nat.min (length g - 1) (ssl g hi))) as [|]; [discriminate|].
  rewrite firstn_length, skipn_length in H2. split.
  - destruct lo as [r| | |]; cbn in *; try lia; try tauto. apply Rlt_le_trans with (rnth g (searchsorted_right g r)); [apply ssr_at; lia|apply incr_le; auto; lia].
  - destruct hi as [r| | |]; cbn in *; try lia; try tauto. apply ssl_below. lia.
Qed.
(* if a grid point is strictly inside the bounds the integral is not skipped *)
Lemma cutoff_3p_reached g lo hi k : incr g -> (2 <= length g)%nat -> 0 <= rnth g 0 -> (k < length g)%nat ->
  gt_lo (rnth g k) lo -> lt_hi (rnth g k) hi -> cutoff_3p g lo hi <> None.
Proof.
  intros Hg HL H0 Hk H1 H2. pose proof (lo_l_strict g lo k Hk H1). pose proof (hi_u_strict g hi k Hg Hk H2).
  unfold cutoff_3p, slices_3p. set (l := (ssr g lo - 1)%nat). set (u := Nat.min (length g - 1) (ssl g hi)).
  assert (Hlu : (l < u)%nat) by (unfold l, u; lia). assert (Hu : (u < length g)%nat) by (unfold u; lia).
  destruct (Nat.eqb_spec l u) as [|HN]; [lia|].
  match goal with |- context [existsb ?f ?b] => assert (EX : existsb f b = true) end.
  { apply existsb_exists. exists (rnth g u). split.
    - unfold rnth. replace (nth u g 0) with (nth (u - l) (firstn (u + 1 - l) (skipn l g)) 0).
      + apply nth_In. rewrite firstn_length, skipn_length. lia.
      + rewrite <- (firstn_skipn l g) at 2. rewrite app_nth2; rewrite firstn_length; [|lia].
        rewrite <- (firstn_skipn (u + 1 - l) (skipn l g)) at 2. rewrite app_nth1; [f_equal; lia|]. rewrite firstn_length, skipn_length. lia.
    - pose proof (Hg 0%nat u ltac:(lia) Hu). destruct (Req_EM_T _ 0); [lra|reflexivity]. }
  rewrite EX. discriminate.
Qed.

Lemma cutoff_4p_type r hnl mx : (4 <= length r)%nat ->
  ((exists v, cutoff_4p r hnl mx = Ok v) <-> (-2 <= ksum r <= 2)%Z) /\
  (cutoff_4p r hnl mx = Raise UnboundLocalError <-> (ksum r < -2 \/ 2 < ksum r)%Z).
Proof.
  intros HL. destruct r as [|i1 [|i2 [|i3 [|i4 r]]]]; cbn [length] in HL; try lia.
  set (rr := i1 :: i2 :: i3 :: i4 :: r). assert (HS : exists z, z = ksum rr) by eauto. destruct HS as (z & HZ). rewrite <- HZ.
  unfold cutoff_4p. fold rr. change rr with (i1 :: i2 :: i3 :: i4 :: r) at 1.
  assert (C : creation rr = existsb (Z.eqb z) [-1; -2]%Z) by (unfold creation; now rewrite HZ).
  assert (D : scattering rr = existsb (Z.eqb z) [0]%Z) by (unfold scattering; now rewrite HZ).
  assert (E : decay rr = existsb (Z.eqb z) [1; 2]%Z) by (unfold decay; now rewrite HZ).
  cbn beta iota. rewrite C, D, E. cbn [existsb].
  destruct (Z.eqb_spec z (-1)); destruct (Z.eqb_spec z (-2)); destruct (Z.eqb_spec z 0); destruct (Z.eqb_spec z 1); destruct (Z.eqb_spec z 2); cbn [orb];
    split; split; intros H; try lia; try (eexists; reflexivity); try reflexivity; try discriminate; destruct H; discriminate.
Qed.

(* ---------- bounds cover the allowed momenta ---------- *)
Lemma boost_facts m3 pm : 0 < m3 -> 0 <= pm ->
  boost_gamma m3 pm = sqrt (m3 ^ 2 + pm ^ 2) / m3 /\ boost_gamma m3 pm * boost_beta m3 pm = pm / m3.
Proof.
  intros H3 HP. set (E := sqrt (m3 ^ 2 + pm ^ 2)).
  assert (HE2 : E ^ 2 = m3 ^ 2 + pm ^ 2) by (apply pow2_sqrt; nra).
  assert (HE : 0 < E) by (apply sqrt_lt_R0; nra).
  assert (HG : boost_gamma m3 pm = E / m3).
  { unfold boost_gamma, boost_beta. fold E. replace (1 - (pm / E) ^ 2) with ((m3 / E) ^ 2).
    - rewrite sqrt_sq; [field; split; lra|]. apply Rmult_le_pos; [lra|]. apply Rlt_le, Rinv_0_lt_compat, HE.
    - apply (Rmult_eq_reg_r (E ^ 2)); [|nra]. replace ((m3 / E) ^ 2 * E ^ 2) with (m3 ^ 2) by (field; lra).
      replace ((1 - (pm / E) ^ 2) * E ^ 2) with (E ^ 2 - pm ^ 2) by (field; lra). lra. }
  split; [exact HG|]. rewrite HG. unfold boost_beta. fold E. field. lra.
Qed.
Lemma boost_E_minus q pm m : 0 < m -> 0 <= q <= pm -> sqrt (m ^ 2 + pm ^ 2) - pm <= sqrt (m ^ 2 + q ^ 2) - q.
Proof.
  intros Hm Hq. set (A := sqrt (m ^ 2 + pm ^ 2)). set (B := sqrt (m ^ 2 + q ^ 2)).
  assert (A ^ 2 = m ^ 2 + pm ^ 2) by (apply pow2_sqrt; nra). assert (B ^ 2 = m ^ 2 + q ^ 2) by (apply pow2_sqrt; nra).
  assert (0 < A) by (apply sqrt_lt_R0; nra). assert (0 < B) by (apply sqrt_lt_R0; nra).
  assert (HB : B > q) by nra. assert (HA : A > pm) by nra.
  assert (HE1 : (A - pm) * (A + pm) = m ^ 2) by nra. assert (HE2 : (B - q) * (B + q) = m ^ 2) by nra.
  assert (B <= A) by nra. nra.
Qed.
Lemma decay_rest_frame m1 m2 m3 q p1 c :
  0 <= m1 -> 0 <= m2 -> 0 < m3 -> 0 <= q -> 0 <= p1 -> -1 <= c <= 1 ->
  sqrt (p1 ^ 2 + m1 ^ 2) + sqrt (q ^ 2 + p1 ^ 2 - 2 * q * p1 * c + m2 ^ 2) = sqrt (q ^ 2 + m3 ^ 2) ->
  exists p ppar, cm_momentum m3 m2 m1 = Fin p /\ 0 <= p /\ - p <= ppar <= p /\
    sqrt (p1 ^ 2 + m1 ^ 2) = (sqrt (m3 ^ 2 + q ^ 2) * sqrt (m1 ^ 2 + p ^ 2) + q * ppar) / m3.
Proof.
  intros H1 H2 H3 Hq Hp Hc HE.
  set (E1 := sqrt (p1 ^ 2 + m1 ^ 2)) in *. set (E3 := sqrt (q ^ 2 + m3 ^ 2)) in *. set (E2 := sqrt (q ^ 2 + _ - _ + _)) in *.
  assert (S1 : E1 ^ 2 = p1 ^ 2 + m1 ^ 2) by (apply pow2_sqrt; nra).
  assert (S3 : E3 ^ 2 = q ^ 2 + m3 ^ 2) by (apply pow2_sqrt; nra).
  assert (Hk : 0 <= q * p1) by (apply Rmult_le_pos; lra). assert (Hkc : q * p1 * c <= q * p1) by nra.
  assert (S2 : E2 ^ 2 = q ^ 2 + p1 ^ 2 - 2 * q * p1 * c + m2 ^ 2) by (unfold E2; rewrite pow2_sqrt; [reflexivity|]; pose proof (pow2_ge_0 (q - p1)); pose proof (pow2_ge_0 m2); lra).
  assert (P1 : 0 <= E1) by apply sqrt_pos. assert (P3 : 0 < E3) by (apply sqrt_lt_R0; nra).
  assert (Q1 : p1 <= E1) by nra. assert (Q3 : q < E3) by nra.
  set (Es := (E3 * E1 - q * p1 * c) / m3). set (ppar := (E3 * p1 * c - q * E1) / m3).
  assert (HEs : Es = (m3 ^ 2 + m1 ^ 2 - m2 ^ 2) / (2 * m3)).
  { unfold Es. apply (Rmult_eq_reg_r (2 * m3)); [|lra]. match goal with |- ?a = _ => replace a with (2 * (E3 * E1 - q * p1 * c)) by (field; lra) end.
    replace ((m3 ^ 2 + m1 ^ 2 - m2 ^ 2) / (2 * m3) * (2 * m3)) with (m3 ^ 2 + m1 ^ 2 - m2 ^ 2) by (field; lra).
    assert (E2 = E3 - E1) by lra. assert (HH : (E3 - E1) ^ 2 = E2 ^ 2) by congruence. nra. }
  assert (PEs : 0 <= Es).
  { unfold Es. apply Rmult_le_pos; [|apply Rlt_le, Rinv_0_lt_compat; lra]. assert (q * p1 * c <= q * p1) by nra. nra. }
  assert (HD : Es ^ 2 - ppar ^ 2 = m1 ^ 2 + p1 ^ 2 * (1 - c ^ 2)).
  { apply (Rmult_eq_reg_r (m3 ^ 2)); [|nra].
    replace ((Es ^ 2 - ppar ^ 2) * m3 ^ 2) with ((E3 * E1 - q * p1 * c) ^ 2 - (E3 * p1 * c - q * E1) ^ 2) by (unfold Es, ppar; field; lra).
    replace ((E3 * E1 - q * p1 * c) ^ 2 - (E3 * p1 * c - q * E1) ^ 2) with ((E3 ^ 2 - q ^ 2) * (E1 ^ 2 - p1 ^ 2 * c ^ 2)) by ring.
    rewrite S1, S3. ring. }
  assert (HLAM : lam m3 m2 m1 = 4 * m3 ^ 2 * (Es ^ 2 - m1 ^ 2)) by (rewrite HEs; unfold lam; field; lra).
  assert (Hc2 : 0 <= 1 - c ^ 2) by nra. assert (Hpp : 0 <= p1 ^ 2 * (1 - c ^ 2)) by (apply Rmult_le_pos; nra).
  assert (HL0 : 0 <= Es ^ 2 - m1 ^ 2) by nra.
  assert (HL : 0 <= lam m3 m2 m1) by (rewrite HLAM; apply Rmult_le_pos; nra).
  set (p := sqrt (lam m3 m2 m1) / (2 * m3)).
  assert (Pp : 0 <= p) by (unfold p; apply Rmult_le_pos; [apply sqrt_pos|apply Rlt_le, Rinv_0_lt_compat; lra]).
  assert (Hp2 : p ^ 2 = Es ^ 2 - m1 ^ 2).
  { unfold p. replace ((sqrt (lam m3 m2 m1) / (2 * m3)) ^ 2) with (sqrt (lam m3 m2 m1) ^ 2 / (4 * m3 ^ 2)) by (field; lra).
    rewrite pow2_sqrt by auto. rewrite HLAM. field. lra. }
  exists p, ppar. split; [apply cm_Fin; auto; lra|]. split; [auto|]. split; [split; nra|].
  replace (m1 ^ 2 + p ^ 2) with (Es ^ 2) by lra. rewrite sqrt_sq by auto.
  replace (m3 ^ 2 + q ^ 2) with (q ^ 2 + m3 ^ 2) by ring. fold E3.
  apply (Rmult_eq_reg_r (m3 ^ 2)); [|nra].
  replace ((E3 * Es + q * ppar) / m3 * m3 ^ 2) with (E3 * (Es * m3) + q * (ppar * m3)) by (field; lra).
  replace (Es * m3) with (E3 * E1 - q * p1 * c) by (unfold Es; field; lra).
  replace (ppar * m3) with (E3 * p1 * c - q * E1) by (unfold ppar; field; lra).
  replace (E3 * (E3 * E1 - q * p1 * c) + q * (E3 * p1 * c - q * E1)) with ((E3 ^ 2 - q ^ 2) * E1) by ring. rewrite S3. ring.
Qed.

Lemma bounds_3p_cover m1 m2 m3 pm q p1 c ml :
  0 <= m1 -> 0 <= m2 -> 0 < m3 -> 0 <= q <= pm -> 0 <= p1 -> -1 <= c <= 1 -> (ml = true -> m1 = 0) ->
  sqrt (p1 ^ 2 + m1 ^ 2) + sqrt (q ^ 2 + p1 ^ 2 - 2 * q * p1 * c + m2 ^ 2) = sqrt (q ^ 2 + m3 ^ 2) ->
  exists lo hi, bounds_3p ml m1 m2 m3 pm = (Fin lo, Fin hi) /\ lo <= p1 <= hi.
Proof.
  intros H1 H2 H3 Hq Hp Hc Hml HE. destruct (decay_rest_frame m1 m2 m3 q p1 c) as (p & pp & HCM & Pp & Hpp & HE1); auto; try lra.
  unfold bounds_3p. rewrite HCM. destruct (boost_facts m3 pm H3 ltac:(lra)) as [HG HGB].
  set (gm := boost_gamma m3 pm) in *. set (bt := boost_beta m3 pm) in *. set (Es := sqrt (m1 ^ 2 + p ^ 2)) in *.
  assert (PEs : 0 <= Es) by apply sqrt_pos. assert (SEs : Es ^ 2 = m1 ^ 2 + p ^ 2) by (apply pow2_sqrt; nra).
  assert (I3 : 0 < / m3) by (apply Rinv_0_lt_compat; lra).
  set (E1 := sqrt (p1 ^ 2 + m1 ^ 2)) in *. assert (S1 : E1 ^ 2 = p1 ^ 2 + m1 ^ 2) by (apply pow2_sqrt; nra). assert (P1 : 0 <= E1) by apply sqrt_pos.
  set (Em := sqrt (m3 ^ 2 + pm ^ 2)) in *. set (Eq := sqrt (m3 ^ 2 + q ^ 2)) in *.
  assert (HEE : Eq <= Em) by (apply sqrt_le_1; nra). assert (PEq : 0 <= Eq) by apply sqrt_pos.
  replace (gm * (Es + bt * p)) with ((Em * Es + pm * p) / m3).
  2:{ replace (gm * (Es + bt * p)) with (gm * Es + (gm * bt) * p) by ring. rewrite HGB, HG. field. lra. }
  set (EM := (Em * Es + pm * p) / m3).
  assert (HM : E1 <= EM). { rewrite HE1. unfold EM. apply Rmult_le_compat_r; [lra|]. assert (q * pp <= pm * p) by nra. nra. }
  assert (HMX : 0 <= EM ^ 2 - m1 ^ 2) by nra.
  assert (Hhi : nsqrt (EM ^ 2 - m1 ^ 2) = Fin (sqrt (EM ^ 2 - m1 ^ 2))) by (unfold nsqrt; destruct (Rlt_dec _ 0); [lra|auto]).
  assert (Hup : p1 <= sqrt (EM ^ 2 - m1 ^ 2)).
  { rewrite <- (sqrt_sq p1) by auto. apply sqrt_le_1; nra. }
  destruct ml.
  - specialize (Hml eq_refl). subst m1.
    replace (gm * (Es - bt * p)) with ((Em * Es - pm * p) / m3).
    2:{ replace (gm * (Es - bt * p)) with (gm * Es - (gm * bt) * p) by ring. rewrite HGB, HG. field. lra. }
    assert (HEp : Es = p) by nra.
    assert (HE1p : E1 = p1) by nra.
    set (EN := (Em * Es - pm * p) / m3).
    assert (HN0 : 0 <= EN).
    { unfold EN. apply Rmult_le_pos; [|lra]. rewrite HEp. assert (pm <= Em); [|nra]. assert (Em ^ 2 = m3 ^ 2 + pm ^ 2) by (apply pow2_sqrt; nra). assert (0 <= Em) by apply sqrt_pos. nra. }
    assert (HN : EN <= p1).
    { rewrite <- HE1p, HE1. unfold EN. apply Rmult_le_compat_r; [lra|]. rewrite HEp.
      pose proof (boost_E_minus q pm m3 H3 Hq) as HB. fold Em Eq in HB. assert (- (q * p) <= q * pp) by nra. nra. }
    exists (sqrt (EN ^ 2 - 0 ^ 2)), (sqrt (EM ^ 2 - 0 ^ 2)). rewrite Hhi. unfold nsqrt. destruct (Rlt_dec _ 0); [nra|]. split; [reflexivity|]. split; [|auto].
    replace (EN ^ 2 - 0 ^ 2) with (EN ^ 2) by ring. now rewrite sqrt_sq.
  - exists 0, (sqrt (EM ^ 2 - m1 ^ 2)). rewrite Hhi. replace (m1 ^ 2 - m1 ^ 2) with 0 by ring. unfold nsqrt at 1. destruct (Rlt_dec 0 0); [lra|]. rewrite sqrt_0. split; [reflexivity|]. lra.
Qed.

(* four particles: 1 + 2 + 3 <- 4 *)
Lemma sqrt_ge_mass p m : 0 <= m -> m <= sqrt (p ^ 2 + m ^ 2).
Proof. intros H. rewrite <- (sqrt_sq m) at 1 by auto. apply sqrt_le_1; nra. Qed.
Lemma pymax_ge x c b : pymax x c = Fin b -> c <= b /\ (forall y, x = Fin y -> y <= b).
Proof.
  unfold pymax. destruct x as [y| | |]; cbn; try (intros H; (discriminate H || (injection H as <-; split; [lra|intros; discriminate]))).
  destruct (Rlt_dec y c); intros H; injection H as <-; split; try lra; intros z Hz; injection Hz as <-; lra.
Qed.
Lemma bound_4p_cover m1 m2 m3 m4 pm mx p1 p2 p3 p4 :
  0 <= m1 -> 0 <= m2 -> 0 <= m3 -> 0 <= p1 -> 0 <= p4 <= pm ->
  sqrt (p1 ^ 2 + m1 ^ 2) + sqrt (p2 ^ 2 + m2 ^ 2) + sqrt (p3 ^ 2 + m3 ^ 2) = sqrt (p4 ^ 2 + m4 ^ 2) ->
  exists b, bound_4p m1 m2 m3 m4 pm mx = Fin b /\ p1 <= b /\ mx * MeV <= b.
Proof.
  intros H1 H2 H3 Hp1 Hp4 HE. unfold bound_4p.
  set (E1 := sqrt (p1 ^ 2 + m1 ^ 2)) in *. assert (S1 : E1 ^ 2 = p1 ^ 2 + m1 ^ 2) by (apply pow2_sqrt; nra).
  assert (P1 : 0 <= E1) by apply sqrt_pos.
  pose proof (sqrt_ge_mass p2 m2 H2). pose proof (sqrt_ge_mass p3 m3 H3).
  assert (HM : sqrt (p4 ^ 2 + m4 ^ 2) <= sqrt (pm ^ 2 + m4 ^ 2)) by (apply sqrt_le_1; nra).
  set (X := sqrt (pm ^ 2 + m4 ^ 2) - m2 - m3).
  assert (HX : E1 <= X) by (unfold X; lra).
  assert (HS : nsqrt (X ^ 2 - m1 ^ 2) = Fin (sqrt (X ^ 2 - m1 ^ 2))) by (unfold nsqrt; destruct (Rlt_dec _ 0) as [Hl|]; [exfalso; clear - Hl HX S1 P1 H1 Hp1; nra|auto]).
  rewrite HS. assert (Hp : p1 <= sqrt (X ^ 2 - m1 ^ 2)) by (rewrite <- (sqrt_sq p1) at 1 by auto; apply sqrt_le_1; nra).
  revert Hp. generalize (sqrt (X ^ 2 - m1 ^ 2)). intros y Hp. unfold pymax. cbn [xgt]. destruct (Rlt_dec _ _); eexists; (split; [reflexivity|]); lra.
Qed.
