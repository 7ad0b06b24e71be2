(* C185-C188: the quadratures of trapezoidal.cpp and simpson.cpp *)
From Coq Require Import Reals Lra Psatz List PeanoNat Lia.
From Coquelicot Require Import Coquelicot.
From Verif Require Import TrapModel TrapProofs.
Import ListNotations.
Open Scope R_scope.

Lemma concave_bent a b f : concave_on a b f -> bent (-1) a b f.
Proof. intros H x y t Hx Hy Ht. specialize (H x y t Hx Hy Ht). cbv beta. lra. Qed.
Lemma convex_bent a b f : convex_on a b f -> bent 1 a b f.
Proof. intros H x y t Hx Hy Ht. specialize (H x y t Hx Hy Ht). cbv beta. lra. Qed.
Lemma small_true ea er e r : small ea er e r = true -> Rabs e <= ea \/ Rabs e <= er * Rabs r.
Proof.
  unfold small. destruct (Rle_dec (Rabs e) ea) as [L|_]; [now left|]. destruct (Req_EM_T r 0) as [_|N]; [discriminate|].
  destruct (Rle_dec (Rabs (e / r)) er) as [L|_]; [|discriminate]. intros _. right. unfold Rdiv in L.
  rewrite Rabs_mult, Rabs_inv in L. apply Rabs_pos_lt in N as P. apply (Rmult_le_compat_r (Rabs r)) in L; [|lra].
  rewrite Rmult_assoc, Rinv_l, Rmult_1_r in L by lra. exact L.
Qed.

(* the trapezoidal sum over N equal panels *)
Definition composite (f : R -> R) (a b : R) (N : nat) : R :=
  let h := (b - a) / INR N in sum_f_R0 (fun i => h * ((f (a + h * INR i) + f (a + h * INR (S i))) / 2)) (N - 1).
Lemma rsum_sum g n : rsum g (S n) = sum_f_R0 g n.
Proof. induction n as [|n IH]; [cbn; ring|]. rewrite tech5, <- IH. reflexivity. Qed.
Lemma trapezium0_composite f a b N : (0 < N)%nat -> trapezium0 f a b (S N) = composite f a b N.
Proof.
  intros H. destruct N as [|N]; [lia|]. rewrite trapezium0_tsum. unfold tsum, composite. cbn [Nat.sub]. rewrite Nat.sub_0_r, rsum_sum.
  apply sum_eq. intros i _. unfold tpanel. rewrite (S_INR i).
  replace (a + (b - a) / INR (S N) * INR i + (b - a) / INR (S N)) with (a + (b - a) / INR (S N) * (INR i + 1)) by ring. reflexivity.
Qed.
Lemma T_composite f a b k : T f a b k = composite f a b (2 ^ k * 19).
Proof. unfold T, pts. apply trapezium0_composite. pose proof (Nat.pow_nonzero 2 k ltac:(lia)). nia. Qed.

(* C185. Repeated halving: for a convex (concave) integrand the stored result is
   above (below) the integral by at most the stored error, converged or not, and
   with the status of success within one of the two tolerances. *)
Theorem C185_halving : forall f a b epsabs epsrel limit st r e c I, a <= b -> is_RInt f a b I ->
  nonadaptive_trapezium f a b epsabs epsrel limit = (st, Some (r, e), c) ->
  (convex_on a b f -> 0 <= r - I <= - e) /\ (concave_on a b f -> 0 <= I - r <= e) /\
  (convex_on a b f \/ concave_on a b f -> Rabs (r - I) <= Rabs e /\ (st = O -> Rabs (r - I) <= epsabs \/ Rabs (r - I) <= epsrel * Rabs r)).
Proof.
  intros f a b ea er limit st r e c I Hab HI H. destruct (nonadaptive_spec _ _ _ _ _ _ _ _ _ H) as (k & _ & _ & _ & O0 & O1 & S0 & _ & _).
  destruct k as [|k]; [specialize (O0 eq_refl); discriminate|]. destruct (O1 ltac:(lia)) as [_ E]. injection E as -> ->.
  cbn [Nat.sub] in *. rewrite Nat.sub_0_r in *.
  assert (B : forall s, bent s a b f -> 0 <= s * (T f a b (S k) - I) <= s * (T f a b k - T f a b (S k))).
  { intros s Hs. pose proof (pts_ge k) as G. pose proof (pts_S k) as PS.
    pose proof (bent_double s f a b (pts k - 2) I Hab Hs HI) as D. cbn zeta in D.
    replace (S (S (pts k - 2))) with (pts k) in D by lia. replace (S (2 * S (pts k - 2))) with (pts (S k)) in D by lia. exact D. }
  assert (B1 : convex_on a b f -> 0 <= T f a b (S k) - I <= - (T f a b (S k) - T f a b k)).
  { intros Hc. pose proof (B 1 (convex_bent _ _ _ Hc)). lra. }
  assert (B2 : concave_on a b f -> 0 <= I - T f a b (S k) <= T f a b (S k) - T f a b k).
  { intros Hc. pose proof (B (-1) (concave_bent _ _ _ Hc)). lra. }
  split; [exact B1|]. split; [exact B2|]. intros Hc.
  assert (L : Rabs (T f a b (S k) - I) <= Rabs (T f a b (S k) - T f a b k)).
  { destruct Hc as [Hc|Hc].
    - specialize (B1 Hc). rewrite (Rabs_right (_ - I)), (Rabs_left1 (_ - T f a b k)) by lra. lra.
    - specialize (B2 Hc). rewrite (Rabs_left1 (_ - I)), (Rabs_right (_ - T f a b k)) by lra. lra. }
  split; [exact L|]. intros Z. destruct (S0 Z) as [_ SM]. apply small_true in SM as [Q|Q]; [left|right]; lra.
Qed.
Print Assumptions C185_halving.

(* Recursive subdivision, likewise, whatever the depth at which it stops *)
Theorem C185_adaptive : forall f a b epsabs epsrel limit r e c I, a <= b -> is_RInt f a b I ->
  adaptive_trapezium f a b epsabs epsrel limit = ((r, e), c) ->
  (convex_on a b f -> 0 <= r - I <= - e) /\ (concave_on a b f -> 0 <= I - r <= e).
Proof.
  intros f a b ea er limit r e c I Hab HI H. unfold adaptive_trapezium in H. assert (V : valid f []) by constructor. split; intros Hc.
  - pose proof (adaptive_spec f 1 ea er (limit - 1) a b [] V) as Q. rewrite H in Q. destruct Q as (_ & _ & Q).
    specialize (Q I Hab (convex_bent _ _ _ Hc) HI). lra.
  - pose proof (adaptive_spec f (-1) ea er (limit - 1) a b [] V) as Q. rewrite H in Q. destruct Q as (_ & _ & Q).
    specialize (Q I Hab (concave_bent _ _ _ Hc) HI). lra.
Qed.
Print Assumptions C185_adaptive.

(* C186. The claim that success means accuracy is false for other integrands:
   one that vanishes at the nodes of the first two sums is integrated to 0 with
   error 0 at any tolerances, by both routines, though its integral is 1. *)
Definition wave (x : R) : R := 1 - cos (2 * PI * (266 * x)).
Lemma wave_node N M i : (0 < N)%nat -> (266 = M * N)%nat -> wave (0 + (1 - 0) / INR N * INR i) = 0.
Proof.
  intros HN HM. unfold wave. assert (0 < INR N) by (apply lt_0_INR; lia).
  assert (E : 266 = INR M * INR N). { rewrite <- mult_INR, <- HM. cbn. ring. }
  replace (2 * PI * (266 * (0 + (1 - 0) / INR N * INR i))) with (0 + 2 * INR (M * i) * PI).
  - rewrite cos_period, cos_0. ring.
  - rewrite E, mult_INR. field. lra.
Qed.
Lemma rsum_0 g n : (forall i, (i < n)%nat -> g i = 0) -> rsum g n = 0.
Proof. induction n as [|n IH]; intros H; cbn; [reflexivity|]. rewrite IH by (intros; apply H; lia). rewrite H by lia. ring. Qed.
Lemma wave_sum N M : (266 = M * S N)%nat -> trapezium0 wave 0 1 (S (S N)) = 0.
Proof.
  intros HM. rewrite trapezium0_tsum. unfold tsum. apply rsum_0.
  intros i _. unfold tpanel. replace (0 + (1 - 0) / INR (S N) * INR i + (1 - 0) / INR (S N)) with (0 + (1 - 0) / INR (S N) * INR (S i)) by (rewrite (S_INR i); ring).
  rewrite !(wave_node (S N) M) by (exact HM || lia). field. apply not_0_INR. lia.
Qed.
Lemma wave_integral : is_RInt wave 0 1 1.
Proof.
  pose proof PI_RGT_0 as HP. set (g := fun x => x - sin (2 * PI * (266 * x)) / (532 * PI)).
  assert (E : g 1 - g 0 = 1).
  { unfold g. replace (2 * PI * (266 * 1)) with (0 + 2 * INR 266 * PI) by (cbn; ring). rewrite sin_period.
    replace (2 * PI * (266 * 0)) with 0 by ring. rewrite sin_0. field. lra. }
  assert (D : is_RInt wave 0 1 (g 1 - g 0)).
  { apply (is_RInt_derive (V := R_CompleteNormedModule) g wave).
    - intros x _. unfold g, wave. auto_derive; [exact I|]. field. lra.
    - intros x _. unfold wave. apply (ex_derive_continuous (V := R_NormedModule)). auto_derive. exact I. }
  rewrite E in D. exact D.
Qed.
Theorem C186_success_refuted : exists f I, is_RInt f 0 1 I /\ I = 1 /\ (forall x, continuous f x /\ 0 <= f x <= 2) /\
  forall epsabs epsrel limit, 0 <= epsabs ->
    ((39 <= limit)%nat -> exists c, nonadaptive_trapezium f 0 1 epsabs epsrel limit = (O, Some (0, 0), c)) /\
    (exists c, adaptive_trapezium f 0 1 epsabs epsrel limit = ((0, 0), c)).
Proof.
  exists wave, 1. split; [exact wave_integral|]. split; [reflexivity|]. split.
  { intros x. split; [|unfold wave; pose proof (COS_bound (2 * PI * (266 * x))); lra].
    apply (ex_derive_continuous (V := R_NormedModule)). unfold wave. auto_derive. exact I. }
  intros ea er limit He. assert (V0 : valid wave []) by constructor.
  assert (SM : small ea er (0 - 0) 0 = true).
  { unfold small. rewrite Rminus_0_r, Rabs_R0. destruct (Rle_dec 0 ea); [reflexivity|contradiction]. }
  split.
  - intros HL. destruct (nonadaptive_trapezium wave 0 1 ea er limit) as [[st out] c] eqn:E. exists c.
    destruct (nonadaptive_spec _ _ _ _ _ _ _ _ _ E) as (k & _ & _ & _ & _ & O1 & S0 & S1 & SMk).
    assert (T0 : T wave 0 1 0 = 0) by (apply (wave_sum 18 14); lia). assert (T1 : T wave 0 1 1 = 0) by (apply (wave_sum 37 7); lia).
    assert (K : k = 1%nat).
    { destruct k as [|[|k]]; [|reflexivity|].
      - destruct st; [destruct (S0 eq_refl); lia|]. destruct (S1 ltac:(discriminate)) as (_ & Q & _). cbn in Q. lia.
      - specialize (SMk 1%nat ltac:(lia)). cbn [Nat.sub] in SMk. rewrite T0, T1 in SMk. congruence. }
    subst k. destruct (O1 ltac:(lia)) as [_ EO]. cbn [Nat.sub] in *. rewrite T0, T1 in *.
    destruct st; [rewrite EO; do 2 f_equal; f_equal; f_equal; ring|]. destruct (S1 ltac:(discriminate)) as (_ & _ & Q). rewrite (Q ltac:(lia)) in SM. discriminate.
  - unfold adaptive_trapezium.
    destruct (trapezium_spec wave 0 1 8 [] ltac:(lia) V0) as (E1 & V1 & _). rewrite (wave_sum 6 38 ltac:(lia)) in E1.
    destruct (limit - 1)%nat as [|d]; cbn [adaptive]; destruct (trapezium wave 0 1 8 []) as [r1 c1]; cbn [fst snd] in *; subst r1;
      destruct (trapezium_spec wave 0 1 15 c1 ltac:(lia) V1) as (E2 & _); rewrite (wave_sum 13 19 ltac:(lia)) in E2;
      destruct (trapezium wave 0 1 15 c1) as [r2 c2]; cbn [fst snd] in *; subst r2; exists c2.
    + rewrite Rminus_0_r. reflexivity.
    + rewrite SM, Rminus_0_r. reflexivity.
Qed.
Print Assumptions C186_success_refuted.

(* What does hold: the stored result is a trapezoidal sum of 19 2^k panels, the
   first at which halving changes it by no more than the tolerances, or else the
   last with at most `limit` nodes, the number of nodes being the status. With a
   limit below 39 nothing is stored and the caller goes on with an uninitialised
   number. *)
Definition meets (epsabs epsrel e r : R) : Prop := Rabs e <= epsabs \/ (r <> 0 /\ Rabs (e / r) <= epsrel).
Lemma small_meets ea er e r : small ea er e r = true <-> meets ea er e r.
Proof.
  unfold small, meets. destruct (Rle_dec (Rabs e) ea); [tauto|]. destruct (Req_EM_T r 0); [split; [discriminate|intros [Q|[Q _]]; contradiction]|].
  destruct (Rle_dec (Rabs (e / r)) er); [tauto|]. split; [discriminate|intros [Q|[_ Q]]; contradiction].
Qed.
Lemma small_not ea er e r : small ea er e r = false <-> ~ meets ea er e r.
Proof. rewrite <- small_meets. destruct (small ea er e r); split; congruence. Qed.
Theorem C186_outcome : forall f a b epsabs epsrel limit st out c, nonadaptive_trapezium f a b epsabs epsrel limit = (st, out, c) ->
  let S k := composite f a b (2 ^ k * 19) in let change k := S k - S (k - 1)%nat in
  ((limit < 39)%nat -> st = 20%nat /\ out = None) /\
  ((39 <= limit)%nat -> exists k, (0 < k)%nat /\ (2 ^ k * 19 < limit)%nat /\ out = Some (S k, change k) /\
    (forall i, (0 < i < k)%nat -> ~ meets epsabs epsrel (change i) (S i)) /\
    ((st = O /\ meets epsabs epsrel (change k) (S k)) \/
     (st = (2 ^ k * 19 + 1)%nat /\ ~ meets epsabs epsrel (change k) (S k) /\ (limit <= 2 ^ (k + 1) * 19)%nat))).
Proof.
  intros f a b ea er limit st out c H. cbv zeta. destruct (nonadaptive_spec _ _ _ _ _ _ _ _ _ H) as (k & _ & _ & _ & O0 & O1 & S0 & S1 & SM).
  pose proof (T_composite f a b) as TC. pose proof (Nat.pow_nonzero 2 k ltac:(lia)) as NZ. split.
  - intros L. assert (k = O) as ->.
    { destruct k as [|k]; [reflexivity|]. destruct (O1 ltac:(lia)) as [Q _]. pose proof (pts_ge k). rewrite pts_S in Q. lia. }
    split; [|now apply O0]. destruct st; [destruct (S0 eq_refl); lia|]. now destruct (S1 ltac:(discriminate)) as (Q & _).
  - intros L. exists k. assert (K : (0 < k)%nat).
    { destruct k as [|k]; [|lia]. destruct st; [destruct (S0 eq_refl); lia|]. destruct (S1 ltac:(discriminate)) as (_ & Q & _). cbn in Q. lia. }
    destruct (O1 K) as [Q1 Q2]. unfold pts in Q1. split; [exact K|]. split; [lia|]. split; [rewrite <- !TC; exact Q2|]. split.
    + intros i Hi. rewrite <- !TC. apply small_not. apply SM. exact Hi.
    + rewrite <- !TC. destruct st as [|st].
      * left. split; [reflexivity|]. apply small_meets. now apply S0.
      * right. destruct (S1 ltac:(discriminate)) as (Q3 & Q4 & Q5). split; [rewrite Q3; unfold pts; lia|]. split; [apply small_not; now apply Q5|].
        unfold pts in Q4. rewrite Nat.add_1_r, Nat.pow_succ_r'. lia.
Qed.
Print Assumptions C186_outcome.

(* C187. The cache: every value is that of the integrand, no abscissa is evaluated
   twice, and the repeated halving evaluates the integrand once at each node of
   the last sum: the refinements cost nothing over a single sum. *)
Theorem C187_calls : forall f a b epsabs epsrel limit st out c, nonadaptive_trapezium f a b epsabs epsrel limit = (st, out, c) ->
  NoDup (map fst c) /\ (forall x v, In (x, v) c -> v = f x) /\
  exists n, (forall x, In x (map fst c) <-> exists i, (i < n)%nat /\ x = a + (b - a) / INR (n - 1) * INR i) /\
    (a < b -> length c = n) /\ (st <> O -> n = st) /\ (forall r e, out = Some (r, e) -> r = composite f a b (n - 1) /\ (n <= limit)%nat) /\ (out = None -> n = 20%nat).
Proof.
  intros f a b ea er limit st out c H. destruct (nonadaptive_spec _ _ _ _ _ _ _ _ _ H) as (k & V & N & K & O0 & O1 & S0 & S1 & _).
  split; [exact N|]. split.
  - intros x v I. exact (proj1 (List.Forall_forall _ _) V (x, v) I).
  - exists (pts k). pose proof (pts_ge k) as G. split; [|split; [|split; [|split]]].
    + intros x. change (map fst c) with (keys c). rewrite K. unfold grid. rewrite in_map_iff. split.
      * intros (i & E & Hi). apply in_seq in Hi. exists i. split; [lia|now symmetry].
      * intros (i & Hi & E). exists i. split; [now symmetry|apply in_seq; lia].
    + intros Hab. rewrite <- (map_length fst). now apply (grid_length a b); [| lia | |].
    + intros Z. symmetry. now apply S1.
    + intros r e E. destruct k as [|k]; [rewrite (O0 eq_refl) in E; discriminate|]. destruct (O1 ltac:(lia)) as [Q1 Q2]. rewrite Q2 in E. injection E as <- _.
      rewrite T_composite. split; [|exact Q1]. unfold pts. cbn [Nat.sub]. now rewrite Nat.sub_0_r.
    + intros E. destruct k as [|k]; [reflexivity|]. destruct (O1 ltac:(lia)) as [_ Q2]. rewrite Q2 in E. discriminate.
Qed.
Print Assumptions C187_calls.
Theorem C187_transparent : forall f a b n c, (2 <= n)%nat -> (forall x v, In (x, v) c -> v = f x) ->
  fst (trapezium f a b n c) = composite f a b (n - 1) /\ fst (trapezium f a b n c) = trapezium0 f a b n /\
  (forall x v, In (x, v) (snd (trapezium f a b n c)) -> v = f x) /\ (NoDup (map fst c) -> NoDup (map fst (snd (trapezium f a b n c)))).
Proof.
  intros f a b n c Hn HV. assert (V : valid f c) by (apply List.Forall_forall; intros [x v] I; now apply HV).
  destruct (trapezium_spec f a b n c Hn V) as (E & V' & N & _). split; [|split; [exact E|split; [|exact N]]].
  - rewrite E. replace n with (S (n - 1)) at 1 by lia. apply trapezium0_composite. lia.
  - intros x v I. exact (proj1 (List.Forall_forall _ _) V' (x, v) I).
Qed.
Print Assumptions C187_transparent.

(* C188. The sampled rules *)
Lemma sampled_rsum m f a b n : integrate_sampled m f a b n = rsum (fun i => (b - a) / INR n * m f (a + (b - a) / INR n * INR i) ((b - a) / INR n)) n.
Proof. unfold integrate_sampled. rewrite fold_rsum, Rplus_0_l, rsum_scal. reflexivity. Qed.
Lemma panels_exact f (m : R -> R -> R) a h : (forall x, is_RInt f x (x + h) (m x h)) ->
  forall n, is_RInt f a (a + h * INR n) (rsum (fun i => m (a + h * INR i) h) n).
Proof.
  intros H. induction n as [|n IH].
  - cbn. rewrite Rmult_0_r, Rplus_0_r. apply (is_RInt_point (V := R_NormedModule)).
  - cbn [rsum]. apply (is_RInt_Chasles (V := R_NormedModule) f a (a + h * INR n)); [exact IH|].
    rewrite S_INR. replace (a + h * (INR n + 1)) with (a + h * INR n + h) by ring. apply H.
Qed.
Lemma sampled_exact m f a b n : (0 < n)%nat -> (forall x h, is_RInt f x (x + h) (h * m f x h)) -> is_RInt f a b (integrate_sampled m f a b n).
Proof.
  intros Hn H. rewrite sampled_rsum. assert (0 < INR n) by (apply lt_0_INR; exact Hn).
  pose proof (panels_exact f (fun x h => h * m f x h) a ((b - a) / INR n) (fun x => H x _) n) as Q.
  replace (a + (b - a) / INR n * INR n) with b in Q by (field; lra). exact Q.
Qed.
Definition cubic (c0 c1 c2 c3 x : R) : R := c0 + c1 * x + c2 * x ^ 2 + c3 * x ^ 3.
Lemma cubic_integral c0 c1 c2 c3 x y : is_RInt (cubic c0 c1 c2 c3) x y
  ((c0 * y + c1 * y ^ 2 / 2 + c2 * y ^ 3 / 3 + c3 * y ^ 4 / 4) - (c0 * x + c1 * x ^ 2 / 2 + c2 * x ^ 3 / 3 + c3 * x ^ 4 / 4)).
Proof.
  apply (is_RInt_derive (V := R_CompleteNormedModule) (fun y => c0 * y + c1 * y ^ 2 / 2 + c2 * y ^ 3 / 3 + c3 * y ^ 4 / 4) (cubic c0 c1 c2 c3)).
  - intros z _. unfold cubic. auto_derive; [exact I|]. field.
  - intros z _. unfold cubic. apply (ex_derive_continuous (V := R_NormedModule)). auto_derive. exact I.
Qed.
(* With any positive number of steps, and in either direction, Simpson's rule is
   exact for cubic polynomials, the trapezoidal rule and the rectangles at the
   middle for linear functions, the rectangles at either side for constants. *)
Theorem C188_exact : forall c0 c1 c2 c3 a b steps, (0 < steps)%nat ->
  is_RInt (cubic c0 c1 c2 c3) a b (integrate_sampled simpson (cubic c0 c1 c2 c3) a b steps) /\
  is_RInt (cubic c0 c1 0 0) a b (integrate_sampled trapezium_rule (cubic c0 c1 0 0) a b steps) /\
  is_RInt (cubic c0 c1 0 0) a b (integrate_sampled (rectangular middle) (cubic c0 c1 0 0) a b steps) /\
  is_RInt (cubic c0 0 0 0) a b (integrate_sampled (rectangular left) (cubic c0 0 0 0) a b steps) /\
  is_RInt (cubic c0 0 0 0) a b (integrate_sampled (rectangular right) (cubic c0 0 0 0) a b steps).
Proof.
  intros c0 c1 c2 c3 a b n Hn.
  assert (G : forall m c0 c1 c2 c3, (forall x h, h * m (cubic c0 c1 c2 c3) x h =
      (c0 * (x + h) + c1 * (x + h) ^ 2 / 2 + c2 * (x + h) ^ 3 / 3 + c3 * (x + h) ^ 4 / 4) - (c0 * x + c1 * x ^ 2 / 2 + c2 * x ^ 3 / 3 + c3 * x ^ 4 / 4)) ->
    is_RInt (cubic c0 c1 c2 c3) a b (integrate_sampled m (cubic c0 c1 c2 c3) a b n)).
  { intros m d0 d1 d2 d3 E. apply sampled_exact; [exact Hn|]. intros x h. rewrite E. apply cubic_integral. }
  repeat split; apply G; intros x h; unfold simpson, trapezium_rule, rectangular, cubic; field.
Qed.
Print Assumptions C188_exact.

(* and no further: its error for x^4 *)
Theorem C188_not_quartic : forall a b steps, (0 < steps)%nat ->
  is_RInt (fun x => x ^ 4) a b (integrate_sampled simpson (fun x => x ^ 4) a b steps - (b - a) ^ 5 / (120 * INR steps ^ 4)).
Proof.
  intros a b n Hn. assert (HN : 0 < INR n) by (apply lt_0_INR; exact Hn).
  assert (E : integrate_sampled simpson (fun x => x ^ 4) a b n = b ^ 5 / 5 - a ^ 5 / 5 + (b - a) ^ 5 / (120 * INR n ^ 4)).
  { rewrite sampled_rsum. set (h := (b - a) / INR n).
    assert (G : forall k, rsum (fun i => h * simpson (fun x => x ^ 4) (a + h * INR i) h) k = (a + h * INR k) ^ 5 / 5 - a ^ 5 / 5 + h ^ 5 * INR k / 120).
    { induction k as [|k IH]; [cbn; field|]. cbn [rsum]. rewrite IH, S_INR. unfold simpson. field. }
    rewrite G. replace (a + h * INR n) with b by (unfold h; field; lra). unfold h. field. lra. }
  rewrite E. replace (b ^ 5 / 5 - a ^ 5 / 5 + (b - a) ^ 5 / (120 * INR n ^ 4) - (b - a) ^ 5 / (120 * INR n ^ 4)) with (b ^ 5 / 5 - a ^ 5 / 5) by ring.
  apply (is_RInt_derive (V := R_CompleteNormedModule) (fun x => x ^ 5 / 5) (fun x => x ^ 4)).
  - intros x _. auto_derive; [exact I|]. field.
  - intros x _. apply (ex_derive_continuous (V := R_NormedModule)). auto_derive. exact I.
Qed.
Print Assumptions C188_not_quartic.

(* The trapezoidal rule with N steps is the sum of N + 1 points of the other file;
   Simpson's is two thirds of the middle rectangles and a third of it, and four
   thirds of the sum with twice the steps less a third of it. *)
Theorem C188_relations : forall f a b steps, (0 < steps)%nat ->
  integrate_sampled trapezium_rule f a b steps = trapezium0 f a b (S steps) /\
  integrate_sampled simpson f a b steps =
    (2 * integrate_sampled (rectangular middle) f a b steps + integrate_sampled trapezium_rule f a b steps) / 3 /\
  integrate_sampled simpson f a b steps =
    (4 * integrate_sampled trapezium_rule f a b (2 * steps) - integrate_sampled trapezium_rule f a b steps) / 3.
Proof.
  intros f a b n Hn. destruct n as [|n]; [lia|].
  assert (ET : forall k, (0 < k)%nat -> integrate_sampled trapezium_rule f a b k = tsum f a ((b - a) / INR k) k) by (intros; now rewrite sampled_rsum).
  assert (EM : integrate_sampled (rectangular middle) f a b (S n) = msum f a ((b - a) / INR (S n)) (S n)) by (now rewrite sampled_rsum).
  assert (ES : integrate_sampled simpson f a b (S n) = (2 * msum f a ((b - a) / INR (S n)) (S n) + tsum f a ((b - a) / INR (S n)) (S n)) / 3).
  { rewrite sampled_rsum. unfold msum, tsum. generalize ((b - a) / INR (S n)). intros h.
    replace ((2 * rsum (fun i => h * f (a + h * INR i + h / 2)) (S n) + rsum (fun i => tpanel f (a + h * INR i) h) (S n)) / 3)
      with (2 / 3 * rsum (fun i => h * f (a + h * INR i + h / 2)) (S n) + 1 / 3 * rsum (fun i => tpanel f (a + h * INR i) h) (S n)) by field.
    rewrite !rsum_scal, <- rsum_plus. apply rsum_ext. intros i _. unfold simpson, tpanel. field. }
  split; [rewrite ET by lia; symmetry; apply trapezium0_tsum|]. split; [rewrite ES, EM, ET by lia; reflexivity|].
  rewrite ES, !ET by lia. replace ((b - a) / INR (2 * S n)) with ((b - a) / INR (S n) / 2).
  - rewrite tsum_double. field.
  - rewrite mult_INR. replace (INR 2) with 2 by (cbn; ring). field. apply not_0_INR. lia.
Qed.
Print Assumptions C188_relations.

(* A nondecreasing integrand lies between the rectangles at the left and at the
   right, which differ by the step times its change; a convex one between those
   at the middle and the trapezoids. *)
Lemma between f (lo hi : R -> R -> R) a h (P : R -> R -> Prop) : 0 <= h -> (forall x y u v, P x y -> x <= u -> v <= y -> P u v) ->
  (forall x I, P x (x + h) -> is_RInt f x (x + h) I -> lo x h <= I <= hi x h) ->
  forall n I, P a (a + h * INR n) -> is_RInt f a (a + h * INR n) I -> rsum (fun i => lo (a + h * INR i) h) n <= I <= rsum (fun i => hi (a + h * INR i) h) n.
Proof.
  intros Hh HP HB. induction n as [|n IH]; intros I HC HI.
  - cbn in HI. rewrite Rmult_0_r, Rplus_0_r in HI. pose proof (is_RInt_unique _ _ _ _ HI) as U. rewrite RInt_point in U.
    change (0 = I) in U. rewrite <- U. split; apply Rle_refl.
  - pose proof (pos_INR n) as PN. set (m := a + h * INR n) in *.
    assert (EE : a + h * INR (S n) = m + h) by (unfold m; rewrite S_INR; ring). rewrite EE in *.
    assert (Hm : a <= m) by (unfold m; nra). assert (HL : m <= m + h) by lra.
    assert (X : ex_RInt f a (m + h)) by (exists I; exact HI).
    assert (X1 : ex_RInt f a m) by (apply (ex_RInt_Chasles_1 f a m (m + h)); [lra|exact X]).
    assert (X2 : ex_RInt f m (m + h)) by (apply (ex_RInt_Chasles_2 f a m (m + h)); [lra|exact X]).
    destruct X1 as [I1 H1], X2 as [I2 H2].
    assert (EI : I = I1 + I2).
    { rewrite <- (is_RInt_unique _ _ _ _ HI). apply is_RInt_unique. apply (is_RInt_Chasles (V := R_NormedModule) f a m (m + h)); assumption. }
    destruct (IH I1 (HP _ _ _ _ HC (Rle_refl a) HL) H1) as [B1 B2].
    destruct (HB m I2 (HP _ _ _ _ HC Hm (Rle_refl _)) H2) as [B3 B4].
    cbn [rsum]. fold m. lra.
Qed.
Theorem C188_brackets : forall f a b steps I, a <= b -> (0 < steps)%nat -> is_RInt f a b I ->
  ((forall x y, a <= x -> x <= y -> y <= b -> f x <= f y) ->
   integrate_sampled (rectangular left) f a b steps <= I <= integrate_sampled (rectangular right) f a b steps) /\
  (convex_on a b f -> integrate_sampled (rectangular middle) f a b steps <= I <= integrate_sampled trapezium_rule f a b steps) /\
  integrate_sampled (rectangular right) f a b steps - integrate_sampled (rectangular left) f a b steps = (b - a) / INR steps * (f b - f a).
Proof.
  intros f a b n I Hab Hn HI. rewrite !sampled_rsum. set (h := (b - a) / INR n). assert (HN : 0 < INR n) by (apply lt_0_INR; exact Hn).
  assert (Hh : 0 <= h) by (unfold h; apply Rmult_le_pos; [lra|left; apply Rinv_0_lt_compat; exact HN]).
  assert (HB : a + h * INR n = b) by (unfold h; field; lra). split; [|split].
  - intros HM. rewrite <- HB in HI, HM.
    apply (between f (fun x h => h * rectangular left f x h) (fun x h => h * rectangular right f x h) a h
             (fun u v => forall x y, u <= x -> x <= y -> y <= v -> f x <= f y) Hh); [| |exact HM|exact HI].
    + intros x y u v H H1 H2 p q Hp Hq Hr. apply H; lra.
    + intros x J H HJ. unfold rectangular.
      pose proof (is_RInt_const (V := R_NormedModule) x (x + h) (f x)) as K1. pose proof (is_RInt_const (V := R_NormedModule) x (x + h) (f (x + h))) as K2.
      assert (HX : x <= x + h) by lra.
      assert (L1 : scal (x + h - x) (f x) <= J) by (apply (is_RInt_le (fun _ => f x) f x (x + h) _ _ HX K1 HJ); intros y Hy; apply H; lra).
      assert (L2 : J <= scal (x + h - x) (f (x + h))) by (apply (is_RInt_le f (fun _ => f (x + h)) x (x + h) _ _ HX HJ K2); intros y Hy; apply H; lra).
      unfold scal in L1, L2; cbn in L1, L2; unfold mult in L1, L2; cbn in L1, L2. split; nra.
  - intros HC. rewrite <- HB in HI, HC. exact (sum_bounds f a h Hh n I HC HI).
  - rewrite <- HB. clearbody h. clear. induction n as [|n IH]; [cbn; rewrite Rmult_0_r, Rplus_0_r; ring|].
    cbn [rsum]. unfold rectangular in *. replace (a + h * INR (S n)) with (a + h * INR n + h) by (rewrite S_INR; ring). lra.
Qed.
Print Assumptions C188_brackets.

(* ---- x^2 on [0, 1] ---- *)
Lemma square_sum h N : tsum (fun x => x ^ 2) 0 h N = h ^ 3 * (INR N ^ 3 / 3 + INR N / 6).
Proof.
  unfold tsum. induction N as [|N IH]; [cbn; field|]. cbn [rsum]. rewrite IH, S_INR. unfold tpanel. field.
Qed.
Lemma square_T N : trapezium0 (fun x => x ^ 2) 0 1 (S (S N)) = 1 / 3 + 1 / (6 * INR (S N) ^ 2).
Proof. rewrite trapezium0_tsum, square_sum. field. apply not_0_INR. lia. Qed.
Lemma square_convex : convex_on 0 1 (fun x => x ^ 2).
Proof. intros x y t Hx Hy Ht. assert (0 <= t * (1 - t) * (x - y) ^ 2) by (apply Rmult_le_pos; [nra|apply pow2_ge_0]). nra. Qed.
Example C185_example : exists c, nonadaptive_trapezium (fun x => x ^ 2) 0 1 (1 / 1000) 0 100 = (O, Some (1 / 3 + 1 / 8664, - (1 / 2888)), c) /\
  length c = 39%nat /\ convex_on 0 1 (fun x => x ^ 2) /\ is_RInt (fun x : R => x ^ 2) 0 1 (1 / 3).
Proof.
  set (f := fun x : R => x ^ 2). destruct (nonadaptive_trapezium f 0 1 (1 / 1000) 0 100) as [[st out] c] eqn:E. exists c.
  assert (T0 : T f 0 1 0 = 1 / 3 + 1 / 2166). { unfold T, pts. cbn [Nat.pow Nat.mul Nat.add]. unfold f. rewrite square_T. cbn. field. }
  assert (T1 : T f 0 1 1 = 1 / 3 + 1 / 8664). { unfold T, pts. cbn [Nat.pow Nat.mul Nat.add]. unfold f. rewrite square_T. cbn. field. }
  assert (SM : small (1 / 1000) 0 (T f 0 1 1 - T f 0 1 (1 - 1)) (T f 0 1 1) = true).
  { cbn [Nat.sub]. rewrite T0, T1. apply small_meets. left. rewrite Rabs_left by lra. lra. }
  destruct (nonadaptive_spec _ _ _ _ _ _ _ _ _ E) as (k & V & N & K & O0 & O1 & S0 & S1 & SMk).
  assert (k = 1%nat) as ->.
  { destruct k as [|[|k]]; [|reflexivity|].
    - destruct st; [destruct (S0 eq_refl); lia|]. destruct (S1 ltac:(discriminate)) as (_ & Q & _). cbn in Q. lia.
    - specialize (SMk 1%nat ltac:(lia)). congruence. }
  split; [|split; [|split]].
  - destruct (O1 ltac:(lia)) as [_ ->]. destruct st; [|destruct (S1 ltac:(discriminate)) as (_ & _ & Q); rewrite (Q ltac:(lia)) in SM; discriminate].
    cbn [Nat.sub]. rewrite T0, T1. replace (1 / 3 + 1 / 8664 - (1 / 3 + 1 / 2166)) with (- (1 / 2888)) by field. reflexivity.
  - rewrite <- (map_length fst). apply (grid_length 0 1); [lra|lia|exact N|exact K].
  - exact square_convex.
  - replace (1 / 3) with (1 ^ 3 / 3 - 0 ^ 3 / 3) by field. apply (is_RInt_derive (V := R_CompleteNormedModule) (fun x => x ^ 3 / 3) f).
    + intros x _. unfold f. auto_derive; [exact I|]. field.
    + intros x _. unfold f. apply (ex_derive_continuous (V := R_NormedModule)). auto_derive. exact I.
Qed.
Example C186_example : exists c, nonadaptive_trapezium (fun x => x) 0 1 0 0 38 = (20%nat, None, c).
Proof.
  destruct (nonadaptive_trapezium (fun x => x) 0 1 0 0 38) as [[st out] c] eqn:E. exists c.
  destruct (C186_outcome _ _ _ _ _ _ _ _ _ E) as [H _]. destruct (H ltac:(lia)) as [-> ->]. reflexivity.
Qed.
Example C187_example : fst (trapezium (fun x => x ^ 2) 0 2 3 [(1, 1)]) = 3 /\ length (snd (trapezium (fun x => x ^ 2) 0 2 3 [(1, 1)])) = 3%nat.
Proof.
  unfold trapezium. cbn [Nat.sub seq fold_left INR]. unfold cached. cbn [find]. destruct (Req_EM_T 0 1); [lra|]. cbn [find].
  destruct (Req_EM_T 2 0); [lra|]. destruct (Req_EM_T 2 1); [lra|]. cbn [find].
  destruct (Req_EM_T (0 + (2 - 0) / (1 + 1) * 1) 2) as [Q|_]; [exfalso; lra|]. destruct (Req_EM_T (0 + (2 - 0) / (1 + 1) * 1) 0) as [Q|_]; [exfalso; lra|].
  destruct (Req_EM_T (0 + (2 - 0) / (1 + 1) * 1) 1) as [_|Q]; [|exfalso; apply Q; field]. cbn [fst snd length]. split; [field|reflexivity].
Qed.
Example C188_example : integrate_sampled simpson (cubic 0 0 0 1) 0 2 3 = 4 /\ integrate_sampled (rectangular left) (cubic 0 1 0 0) 0 2 2 = 1.
Proof. split; unfold integrate_sampled, simpson, rectangular, cubic; cbn; field. Qed.
