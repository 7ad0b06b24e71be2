From Coq Require Import Reals Lra Psatz Permutation.
From Verif Require Import Base Poly IntegratorsModel.
Open Scope R_scope.

(* equally spaced samples of a derivative ending at time t: k values *)
Fixpoint samples (p : R -> R) (t h : R) (k : nat) : list R :=
  match k with
  | O => []
  | S j => p (t - INR j * h) :: samples p t h j
  end.

Lemma samples_length p t h k : length (samples p t h k) = k.
Proof. induction k; simpl; congruence. Qed.

Lemma py_suffix_app (pre l : list R) : (0 < length l)%nat ->
  py_suffix (pre ++ l) (- Z.of_nat (length l)) = l.
Proof.
  intros H. unfold py_suffix. replace (0 <=? - Z.of_nat (length l))%Z with false by (symmetry; apply Z.leb_gt; lia).
  rewrite app_length. replace (Z.to_nat (Z.of_nat (length pre + length l) + - Z.of_nat (length l)))
    with (length pre) by lia.
  rewrite skipn_app, skipn_all, Nat.sub_diag. reflexivity.
Qed.

Lemma ab_order_ok (pre l : list R) h (k : nat) bs d :
  AB_coefficients (Z.of_nat k) = Some (bs, d) -> length l = k -> (0 < k)%nat ->
  adams_bashforth (pre ++ l) h (Some (Z.of_nat k)) = Ok (h * zipdot bs l / d).
Proof.
  intros HC HL Hk. unfold adams_bashforth. rewrite HC.
  rewrite <- HL, py_suffix_app by lia. now rewrite Z.eqb_refl.
Qed.

Lemma ab_default pre l h :
  (length l = Nat.min 5 (length (pre ++ l)))%nat ->
  adams_bashforth (pre ++ l) h None = adams_bashforth (pre ++ l) h (Some (Z.of_nat (length l))).
Proof.
  intros H. unfold adams_bashforth. unfold MAX_AB.
  replace (Z.min 5 (Z.of_nat (length (pre ++ l)))) with (Z.of_nat (length l)) by lia. reflexivity.
Qed.

Ltac five k := destruct k as [|[|[|[|[|[|k]]]]]]; try lia.

(* exactness on polynomials of degree < order *)
Lemma ab_exact (k : nat) (cs : list R) (Y : R -> R) (pre : list R) (t h : R) :
  (1 <= k <= 5)%nat -> (length cs <= k)%nat ->
  (forall s, derivable_pt_lim Y s (peval cs s)) ->
  adams_bashforth (pre ++ samples (peval cs) t h k) h (Some (Z.of_nat k)) = Ok (Y (t + h) - Y t).
Proof.
  intros Hk Hcs HY. rewrite (pint_increment cs Y _ _ HY).
  assert (HC : exists bs d, AB_coefficients (Z.of_nat k) = Some (bs, d)) by (five k; simpl; eauto).
  destruct HC as (bs & d & HC).
  rewrite (ab_order_ok pre _ h k bs d HC); [|apply samples_length|lia]. f_equal.
  five k; simpl in HC; injection HC as <- <-;
  destruct cs as [|c0 [|c1 [|c2 [|c3 [|c4 [|c5 cs]]]]]]; cbn [length] in Hcs; try lia;
  unfold pint; simpl; field.
Qed.

(* the same with the automatic order: the history has at least one sample *)
Lemma ab_exact_auto (n : nat) (cs : list R) (Y : R -> R) (t h : R) :
  (1 <= n)%nat -> (length cs <= Nat.min 5 n)%nat ->
  (forall s, derivable_pt_lim Y s (peval cs s)) ->
  adams_bashforth (samples (peval cs) t h n) h None = Ok (Y (t + h) - Y t).
Proof.
  intros Hn Hcs HY.
  assert (HS : exists pre, samples (peval cs) t h n = pre ++ samples (peval cs) t h (Nat.min 5 n)).
  { clear. destruct (Nat.le_gt_cases n 5) as [H|H].
    - exists []. now rewrite Nat.min_r by lia.
    - rewrite Nat.min_l by lia. induction n as [|n IH]; [lia|].
      destruct (Nat.eq_dec n 5) as [->|Hne].
      + eexists [_]. reflexivity.
      + destruct IH as (pre & E); [lia|]. eexists (_ :: pre). simpl samples at 1. rewrite E. reflexivity. }
  destruct HS as (pre & E).
  assert (HL : length (samples (peval cs) t h (Nat.min 5 n)) = Nat.min 5 (length (pre ++ samples (peval cs) t h (Nat.min 5 n)))).
  { rewrite <- E, !samples_length. reflexivity. }
  rewrite E, (ab_default _ _ _ HL), samples_length.
  apply ab_exact; auto. lia.
Qed.

(* degree = order is not reproduced: the monomial t^k around t = 0 *)
Lemma ab_not_exact (k : nat) (h : R) : (1 <= k <= 5)%nat -> h <> 0 ->
  exists v, adams_bashforth (samples (fun s => s ^ k) 0 h k) h (Some (Z.of_nat k)) = Ok v /\
            v <> h ^ S k / INR (S k) - 0 ^ S k / INR (S k).
Proof.
  intros Hk Hh.
  assert (HC : exists bs d, AB_coefficients (Z.of_nat k) = Some (bs, d)) by (five k; simpl; eauto).
  destruct HC as (bs & d & HC). eexists. split.
  - apply (ab_order_ok [] _ h k bs d HC); [apply samples_length|lia].
  - five k; simpl in HC; injection HC as <- <-; simpl; intros E;
    [ assert (Hz : h * h = 0) by lra
    | assert (Hz : h * h * h = 0) by lra
    | assert (Hz : h * h * h * h = 0) by lra
    | assert (Hz : h * h * h * h * h = 0) by lra
    | assert (Hz : h * h * h * h * h * h = 0) by lra ];
    repeat (apply Rmult_integral in Hz; destruct Hz as [Hz|Hz]); contradiction.
Qed.

(* ---------- argument checking ---------- *)
Definition eff_order (fs : list R) (order : option Z) : Z :=
  match order with Some o => o | None => Z.min 5 (Z.of_nat (length fs)) end.

Lemma AB_coeff_dom o : (exists bs d, AB_coefficients o = Some (bs, d)) <-> (1 <= o <= 5)%Z.
Proof.
  split.
  - intros (bs & d & H). destruct o as [|p|p]; try discriminate.
    destruct p as [[[p|p|]|[p|p|]|]|[[p|p|]|[p|p|]|]|]; try discriminate; lia.
  - intros H. assert (o = 1 \/ o = 2 \/ o = 3 \/ o = 4 \/ o = 5)%Z as HO by lia.
    destruct HO as [->|[->|[->|[->| ->]]]]; simpl; eauto.
Qed.

Lemma AB_coeff_len o bs d : AB_coefficients o = Some (bs, d) -> Z.of_nat (length bs) = o.
Proof.
  intros H. assert (1 <= o <= 5)%Z as HO by (apply AB_coeff_dom; eauto).
  assert (o = 1 \/ o = 2 \/ o = 3 \/ o = 4 \/ o = 5)%Z as HO' by lia.
  destruct HO' as [->|[->|[->|[->| ->]]]]; simpl in H; injection H as <- <-; reflexivity.
Qed.

Lemma py_suffix_neg_length (fs : list R) o : (0 < o)%Z ->
  Z.of_nat (length (py_suffix fs (- o))) = Z.min o (Z.of_nat (length fs)).
Proof.
  intros H. unfold py_suffix. replace (0 <=? - o)%Z with false by (symmetry; apply Z.leb_gt; lia).
  rewrite skipn_length. lia.
Qed.

Lemma ab_errors fs h order :
  let o := eff_order fs order in
  (adams_bashforth fs h order = Raise KeyError <-> ~ (1 <= o <= 5)%Z) /\
  (adams_bashforth fs h order = Raise AssertionError <-> (1 <= o <= 5)%Z /\ (Z.of_nat (length fs) < o)%Z) /\
  ((exists v, adams_bashforth fs h order = Ok v) <-> (1 <= o <= 5)%Z /\ (o <= Z.of_nat (length fs))%Z).
Proof.
  cbn zeta. unfold adams_bashforth.
  replace (match order with Some o => o | None => Z.min MAX_AB (Z.of_nat (length fs)) end)
    with (eff_order fs order) by (destruct order; reflexivity).
  set (o := eff_order fs order).
  destruct (AB_coefficients o) as [[bs d]|] eqn:HC.
  - assert (HO : (1 <= o <= 5)%Z) by (apply AB_coeff_dom; eauto).
    pose proof (py_suffix_neg_length fs o ltac:(lia)) as HL.
    destruct (Z.eqb_spec (Z.of_nat (length (py_suffix fs (- o)))) o) as [E|E].
    + split; [split; [discriminate|intros X; contradiction]|].
      split; [split; [discriminate|lia]|]. split; [intros _; split; [lia|lia]|eauto].
    + split; [split; [discriminate|intros X; contradiction]|].
      split; [split; [intros _; split; lia|auto]|]. split; [intros (v & X); discriminate|lia].
  - assert (HO : ~ (1 <= o <= 5)%Z).
    { intros X. apply AB_coeff_dom in X. destruct X as (bs & d & X). congruence. }
    split; [tauto|]. split; split; try discriminate; try tauto. intros (v & X). discriminate.
Qed.

(* the value depends only on the last `order` derivatives *)
Lemma ab_local fs fs' h o : (1 <= o <= 5)%Z ->
  (o <= Z.of_nat (length fs))%Z -> (o <= Z.of_nat (length fs'))%Z ->
  skipn (length fs - Z.to_nat o) fs = skipn (length fs' - Z.to_nat o) fs' ->
  adams_bashforth fs h (Some o) = adams_bashforth fs' h (Some o).
Proof.
  intros HO H1 H2 HE. unfold adams_bashforth.
  assert (HS : py_suffix fs (- o) = py_suffix fs' (- o)).
  { unfold py_suffix. replace (0 <=? - o)%Z with false by (symmetry; apply Z.leb_gt; lia).
    replace (Z.to_nat (Z.of_nat (length fs) + - o)) with (length fs - Z.to_nat o)%nat by lia.
    replace (Z.to_nat (Z.of_nat (length fs') + - o)) with (length fs' - Z.to_nat o)%nat by lia. exact HE. }
  now rewrite HS.
Qed.

(* ---------- startup ---------- *)
Lemma first_step f h : make_step_increment [0] f h = Ok (3 / 2 * (h * f)).
Proof.
  unfold make_step_increment. replace (py_suffix [0] (- MAX_AB)) with [0] by reflexivity. cbn [app].
  pose proof (ab_default [] [0; f] h eq_refl) as E. cbn [app length] in E. rewrite E.
  pose proof (ab_order_ok [] [0; f] h 2 [-1; 3] 2 eq_refl eq_refl ltac:(lia)) as E2. cbn [app] in E2. rewrite E2.
  f_equal. simpl. field.
Qed.

(* ---------- Adams-Moulton ---------- *)
Lemma AM_coeff_dom o : (exists bs d, AM_coefficients o = Some (bs, d)) <-> (1 <= o <= 5)%Z.
Proof.
  split.
  - intros (bs & d & H). destruct o as [|p|p]; try discriminate.
    destruct p as [[[p|p|]|[p|p|]|]|[[p|p|]|[p|p|]|]|]; try discriminate; lia.
  - intros H. assert (o = 1 \/ o = 2 \/ o = 3 \/ o = 4 \/ o = 5)%Z as HO by lia.
    destruct HO as [->|[->|[->|[->| ->]]]]; simpl; eauto.
Qed.

Lemma zipdot_app bs1 bs2 l1 l2 : length bs1 = length l1 ->
  zipdot (bs1 ++ bs2) (l1 ++ l2) = zipdot bs1 l1 + zipdot bs2 l2.
Proof.
  revert l1; induction bs1 as [|b bs1 IH]; intros [|x l1] H; simpl in *; try discriminate; [ring|].
  rewrite IH by lia. ring.
Qed.

(* value for an explicit order k with k-1 >= 1 old derivatives *)
Lemma am_value pre l y A B h (k : nat) bs d :
  AM_coefficients (Z.of_nat k) = Some (bs, d) -> length l = (k - 1)%nat ->
  (2 <= k)%nat \/ pre = [] ->
  adams_moulton y (pre ++ l) A B h (Some (Z.of_nat k)) =
    Ok ((y + h * zipdot bs (l ++ [A]) / d) / (1 - h * B * last bs 0 / d)).
Proof.
  intros HC HL Hk. assert (HO : (1 <= Z.of_nat k <= 5)%Z) by (apply AM_coeff_dom; eauto).
  unfold adams_moulton. rewrite HC.
  assert (HS : py_suffix (pre ++ l) (- (Z.of_nat k - 1)) = l).
  { destruct Hk as [Hk| ->].
    - replace (- (Z.of_nat k - 1))%Z with (- Z.of_nat (length l))%Z by lia. apply py_suffix_app. lia.
    - destruct (Nat.eq_dec k 1) as [->|Hk1].
      + destruct l; [reflexivity|discriminate].
      + replace (- (Z.of_nat k - 1))%Z with (- Z.of_nat (length l))%Z by lia. apply py_suffix_app. lia. }
  rewrite HS. rewrite app_length. cbn [length].
  replace (Z.of_nat (length l + 1) =? Z.of_nat k)%Z with true by (symmetry; apply Z.eqb_eq; lia). reflexivity.
Qed.

Lemma am_default pre l y A B h :
  (S (length l) = Nat.min 5 (length (pre ++ l) + 1))%nat ->
  adams_moulton y (pre ++ l) A B h None = adams_moulton y (pre ++ l) A B h (Some (Z.of_nat (S (length l)))).
Proof.
  intros H. unfold adams_moulton, MAX_AM.
  replace (Z.min 5 (Z.of_nat (length (pre ++ l)) + 1)) with (Z.of_nat (S (length l))) by lia. reflexivity.
Qed.

Lemma AM_split o bs d : AM_coefficients o = Some (bs, d) -> exists bs0, bs = bs0 ++ [last bs 0] /\
  S (length bs0) = Z.to_nat o /\ d <> 0.
Proof.
  intros H. assert (HO : (1 <= o <= 5)%Z) by (apply AM_coeff_dom; eauto).
  assert (o = 1 \/ o = 2 \/ o = 3 \/ o = 4 \/ o = 5)%Z as HO' by lia.
  destruct HO' as [->|[->|[->|[->| ->]]]]; simpl in H; injection H as <- <-.
  - exists []. repeat split. lra.
  - exists [1]. repeat split. lra.
  - exists [-1; 8]. repeat split. lra.
  - exists [1; -5; 19]. repeat split. lra.
  - exists [-19; 106; -264; 646]. repeat split. lra.
Qed.

Lemma am_implicit pre l y A B h (k : nat) bs d v :
  AM_coefficients (Z.of_nat k) = Some (bs, d) -> length l = (k - 1)%nat ->
  (2 <= k)%nat \/ pre = [] -> 1 - h * B * last bs 0 / d <> 0 ->
  adams_moulton y (pre ++ l) A B h (Some (Z.of_nat k)) = Ok v ->
  v = y + h * zipdot bs (l ++ [A + B * v]) / d.
Proof.
  intros HC HL Hk Hd Hv. rewrite (am_value pre l y A B h k bs d HC HL Hk) in Hv. injection Hv as Hv.
  assert (HO : (1 <= Z.of_nat k <= 5)%Z) by (apply AM_coeff_dom; eauto).
  destruct (AM_split _ _ _ HC) as (bs0 & Hbs & Hl0 & Hd0).
  set (bl := last bs 0) in *.
  assert (HZ : forall X, zipdot bs (l ++ [X]) = zipdot bs0 l + bl * X).
  { intros X. rewrite Hbs at 1. rewrite zipdot_app by lia. simpl. ring. }
  rewrite HZ in Hv. rewrite HZ.
  assert (E : v * (1 - h * B * bl / d) = y + h * (zipdot bs0 l + bl * A) / d).
  { rewrite <- Hv. set (D := 1 - h * B * bl / d) in *. set (N := y + h * (zipdot bs0 l + bl * A) / d).
    field. exact Hd. }
  replace v with (v * (1 - h * B * bl / d) + v * (h * B * bl / d)) at 1 by ring.
  rewrite E. field. exact Hd0.
Qed.

(* exact when the derivative is a polynomial in time of degree < order *)
Lemma am_exact (k : nat) (cs : list R) (Y : R -> R) (pre : list R) (t h : R) :
  (1 <= k <= 5)%nat -> (length cs <= k)%nat -> (2 <= k)%nat \/ pre = [] ->
  (forall s, derivable_pt_lim Y s (peval cs s)) ->
  adams_moulton (Y t) (pre ++ samples (peval cs) t h (k - 1)) (peval cs (t + h)) 0 h (Some (Z.of_nat k))
    = Ok (Y (t + h)).
Proof.
  intros Hk Hcs Hpre HY. pose proof (pint_increment cs Y t (t + h) HY) as HI.
  assert (HC : exists bs d, AM_coefficients (Z.of_nat k) = Some (bs, d)) by (five k; simpl; eauto).
  destruct HC as (bs & d & HC).
  rewrite (am_value pre _ _ _ _ h k bs d HC); [|rewrite samples_length; lia|exact Hpre]. f_equal.
  replace (Y (t + h)) with (Y t + (pint cs (t + h) - pint cs t)) by lra.
  five k; simpl in HC; injection HC as <- <-;
  destruct cs as [|c0 [|c1 [|c2 [|c3 [|c4 [|c5 cs]]]]]]; cbn [length] in Hcs; try lia;
  unfold pint; simpl; field.
Qed.

Lemma am_order1 y f fs A B h : adams_moulton y (f :: fs) A B h (Some 1%Z) = Raise AssertionError.
Proof.
  unfold adams_moulton. cbn [AM_coefficients]. change (- (1 - 1))%Z with 0%Z.
  unfold py_suffix. change (0 <=? 0)%Z with true. cbn match. change (Z.to_nat 0) with 0%nat. cbn [skipn].
  rewrite app_length. replace (Z.of_nat (length (f :: fs) + length [A]) =? 1)%Z with false; [reflexivity|].
  symmetry. apply Z.eqb_neq. simpl. lia.
Qed.

Lemma am_order_ge2 y fs A B h (k : nat) : (2 <= k <= 5)%nat -> (k - 1 <= length fs)%nat ->
  exists v, adams_moulton y fs A B h (Some (Z.of_nat k)) = Ok v.
Proof.
  intros Hk Hl.
  assert (HC : exists bs d, AM_coefficients (Z.of_nat k) = Some (bs, d)) by (five k; simpl; eauto).
  destruct HC as (bs & d & HC).
  rewrite <- (firstn_skipn (length fs - (k - 1)) fs).
  eexists. eapply am_value; [exact HC|rewrite skipn_length; lia|left; lia].
Qed.

(* ---------- implicit Euler ---------- *)
Lemma implicit_euler_solves y t A B h : B * h <> 1 ->
  let v := implicit_euler y t A B h in
  v = y + h * (A + B * v) /\ (forall v', v' = y + h * (A + B * v') -> v' = v).
Proof.
  intros H. cbn zeta. unfold implicit_euler. assert (H' : 1 - B * h <> 0) by lra. split.
  - field. exact H'.
  - intros v' E. apply Rmult_eq_reg_r with (1 - B * h); [|exact H'].
    replace ((y + A * h) / (1 - B * h) * (1 - B * h)) with (y + A * h) by (field; exact H'). lra.
Qed.

Lemma implicit_euler_sign y t A B h : 0 <= h -> 0 <= A -> B <= 0 -> 0 <= y ->
  0 <= implicit_euler y t A B h <= y + A * h.
Proof.
  intros Hh HA HB Hy. unfold implicit_euler.
  assert (HBh : B * h <= 0) by nra. assert (0 <= y + A * h) by nra. split.
  - apply Rmult_le_pos; [lra|]. left. apply Rinv_0_lt_compat. lra.
  - apply Rmult_le_reg_r with (1 - B * h); [lra|].
    replace ((y + A * h) / (1 - B * h) * (1 - B * h)) with (y + A * h) by (field; lra). nra.
Qed.

(* ---------- Euler / Heun ---------- *)
Lemma euler_exact_const c y t h : euler_correction y t (fun _ _ => c) h = c * (t + h) - c * t.
Proof. unfold euler_correction. ring. Qed.

Lemma heun_exact_affine c d y t h :
  heun_correction y t (fun s _ => c + d * s) h = (c * (t + h) + d * (t + h) ^ 2 / 2) - (c * t + d * t ^ 2 / 2).
Proof. unfold heun_correction, euler_correction. cbn zeta. field. Qed.

Lemma heun_linear_ode L y t h :
  y + heun_correction y t (fun _ u => L * u) h = y * (1 + h * L + (h * L) ^ 2 / 2).
Proof. unfold heun_correction, euler_correction. cbn zeta. field. Qed.

(* ---------- quadrature ---------- *)
Lemma rule_sum_ext q f g : (forall x, f x = g x) -> rule_sum q f = rule_sum q g.
Proof. intros H. unfold rule_sum. induction q as [|[x w] q IH]; simpl; [reflexivity|]. now rewrite H, IH. Qed.
Lemma rule_sum_linear q f g a b :
  rule_sum q (fun x => a * f x + b * g x) = a * rule_sum q f + b * rule_sum q g.
Proof. unfold rule_sum. induction q as [|[x w] q IH]; simpl; [ring|]. rewrite IH. ring. Qed.
Lemma rule_sum_scal q c f : rule_sum q (fun x => c * f x) = c * rule_sum q f.
Proof. unfold rule_sum. induction q as [|[x w] q IH]; simpl; [ring|]. rewrite IH. ring. Qed.
Lemma rule_sum_zero q : rule_sum q (fun _ => 0) = 0.
Proof. unfold rule_sum. induction q as [|[x w] q IH]; simpl; [ring|]. rewrite IH. ring. Qed.
Lemma rule_sum_plus q f g : rule_sum q (fun x => f x + g x) = rule_sum q f + rule_sum q g.
Proof. unfold rule_sum. induction q as [|[x w] q IH]; simpl; [ring|]. rewrite IH. ring. Qed.
Lemma rule_sum_perm q q' f : Permutation q q' -> rule_sum q f = rule_sum q' f.
Proof. unfold rule_sum. induction 1; simpl; lra. Qed.
Lemma rule_sum_nonneg q f : Forall (fun nw => 0 <= snd nw) q -> (forall x, 0 <= f x) -> 0 <= rule_sum q f.
Proof.
  intros Hq Hf. unfold rule_sum. induction Hq as [|[x w] q Hw Hq IH]; simpl in *; [lra|].
  pose proof (Hf x). nra.
Qed.
Lemma rule_sum_cons x w q f : rule_sum ((x, w) :: q) f = f x * w + rule_sum q f.
Proof. reflexivity. Qed.
Lemma rule_sum_swap q q' (f : R -> R -> R) :
  rule_sum q (fun x => rule_sum q' (fun y => f x y)) = rule_sum q' (fun y => rule_sum q (fun x => f x y)).
Proof.
  induction q as [|[x w] q IH].
  - change (rule_sum [] (fun x => rule_sum q' (fun y => f x y))) with 0.
    symmetry. apply (rule_sum_zero q').
  - rewrite rule_sum_cons, IH.
    rewrite (rule_sum_ext q' (fun y => rule_sum ((x, w) :: q) (fun x0 => f x0 y))
                             (fun y => w * f x y + 1 * rule_sum q (fun x0 => f x0 y))).
    + rewrite (rule_sum_linear q' (f x) (fun y => rule_sum q (fun x0 => f x0 y)) w 1).
      change (rule_sum q' (fun y => f x y)) with (rule_sum q' (f x)). ring.
    + intros y. rewrite rule_sum_cons. ring.
Qed.

(* gaussian without the special case *)
Lemma gaussian_eq q f a b :
  gaussian q f a b = (b - a) / 2 * rule_sum q (fun x => f ((b - a) / 2 * x + (b + a) / 2)).
Proof.
  unfold gaussian. cbn zeta. destruct (Req_EM_T ((b - a) / 2) 0) as [E|E]; [|reflexivity].
  rewrite E. ring.
Qed.

Lemma gaussian_ext q f g a b : (forall x, f x = g x) -> gaussian q f a b = gaussian q g a b.
Proof. intros H. rewrite !gaussian_eq. f_equal. apply rule_sum_ext. intros; apply H. Qed.

Lemma gaussian_linear q f g a b c d :
  gaussian q (fun x => c * f x + d * g x) a b = c * gaussian q f a b + d * gaussian q g a b.
Proof. rewrite !gaussian_eq, rule_sum_linear. ring. Qed.

Lemma gaussian_point q f a : gaussian q f a a = 0.
Proof. rewrite gaussian_eq. replace ((a - a) / 2) with 0 by field. ring. Qed.

Definition mirror (q : rule) : rule := map (fun nw => (- fst nw, snd nw)) q.
Lemma rule_sum_mirror q f : rule_sum (mirror q) f = rule_sum q (fun x => f (- x)).
Proof. unfold rule_sum, mirror. induction q as [|[x w] q IH]; simpl; [reflexivity|]. now rewrite IH. Qed.

Lemma gaussian_swap q f a b : Permutation (mirror q) q -> gaussian q f b a = - gaussian q f a b.
Proof.
  intros HP. rewrite !gaussian_eq. rewrite <- (rule_sum_perm _ _ (fun x => f ((b - a) / 2 * x + (b + a) / 2)) HP).
  rewrite rule_sum_mirror.
  rewrite (rule_sum_ext q (fun x => f ((a - b) / 2 * x + (a + b) / 2))
                          (fun x => f ((b - a) / 2 * - x + (b + a) / 2))).
  - unfold Rdiv. ring.
  - intros x. f_equal. field.
Qed.

Lemma gaussian_affine q f a b c d :
  gaussian q f (c * a + d) (c * b + d) = gaussian q (fun x => c * f (c * x + d)) a b.
Proof.
  rewrite !gaussian_eq, rule_sum_scal.
  rewrite (rule_sum_ext q (fun x => f ((c * b + d - (c * a + d)) / 2 * x + (c * b + d + (c * a + d)) / 2))
                          (fun x => f (c * ((b - a) / 2 * x + (b + a) / 2) + d))).
  - unfold Rdiv. ring.
  - intros x. f_equal. field.
Qed.

Lemma gaussian_nonneg q f a b : Forall (fun nw => 0 <= snd nw) q -> (forall x, 0 <= f x) -> a <= b ->
  0 <= gaussian q f a b.
Proof.
  intros Hq Hf Hab. rewrite gaussian_eq. apply Rmult_le_pos; [lra|]. now apply rule_sum_nonneg.
Qed.

(* polynomial exactness: the reference rule integrates x^j on [-1,1] for j <= deg *)
Definition moments (q : rule) (deg : nat) : Prop :=
  forall j, (j <= deg)%nat -> rule_sum q (fun x => x ^ j) = 1 ^ S j / INR (S j) - (-1) ^ S j / INR (S j).

Lemma rule_sum_polyk q cs : forall k deg, (k + length cs <= S deg)%nat -> moments q deg ->
  rule_sum q (fun x => x ^ k * peval cs x) = pintk k cs 1 - pintk k cs (-1).
Proof.
  induction cs as [|c r IH]; intros k deg Hd HM; cbn [peval pintk].
  - rewrite (rule_sum_ext q _ (fun _ => 0)) by (intros; ring). rewrite rule_sum_zero. ring.
  - rewrite (rule_sum_ext q _ (fun x => c * x ^ k + 1 * (x ^ S k * peval r x))) by (intros; simpl; ring).
    rewrite (rule_sum_linear q (fun x => x ^ k) (fun x => x ^ S k * peval r x) c 1).
    cbn [length] in Hd. rewrite (IH (S k) deg) by (auto; lia). rewrite HM by lia. unfold Rdiv. ring.
Qed.

Lemma gaussian_exact q cs (F : R -> R) deg a b :
  (length cs <= S deg)%nat -> moments q deg ->
  (forall t, derivable_pt_lim F t (peval cs t)) ->
  gaussian q (peval cs) a b = F b - F a.
Proof.
  intros Hd HM HF. rewrite gaussian_eq.
  set (s := (b - a) / 2). set (d := (b + a) / 2).
  rewrite (rule_sum_ext q _ (fun x => x ^ 0 * peval (pcomp cs s d) x)).
  2:{ intros x. rewrite peval_pcomp. simpl. ring. }
  rewrite (rule_sum_polyk q _ 0 deg); [|pose proof (pcomp_length cs s d); simpl; lia|exact HM].
  fold pint.
  assert (HD : forall t, derivable_pt_lim (fun u => F (s * u + d)) t (s * peval (pcomp cs s d) t)).
  { intros t. rewrite peval_pcomp. rewrite Rmult_comm.
    apply (derivable_pt_lim_comp (fun u => s * u + d) F); [|apply HF].
    replace s with (s * 1 + 0) at 1 by ring.
    apply (derivable_pt_lim_plus (fun u => s * u) (fun _ => d)); [|apply derivable_pt_lim_const].
    apply (derivable_pt_lim_scal (fun u => u)). apply derivable_pt_lim_id. }
  assert (HD2 : forall t, derivable_pt_lim (fun u => s * pint (pcomp cs s d) u) t (s * peval (pcomp cs s d) t)).
  { intros t. apply (derivable_pt_lim_scal (pint (pcomp cs s d))). apply pint_deriv. }
  pose proof (same_deriv_increment _ _ _ HD HD2 (-1) 1) as HE. cbv beta in HE.
  replace (s * 1 + d) with b in HE by (unfold s, d; field).
  replace (s * -1 + d) with a in HE by (unfold s, d; field).
  unfold pint in HE |- *. lra.
Qed.

(* double quadrature *)
Lemma double_gaussian_iterated q f a b g h :
  double_gaussian q f a b g h = gaussian q (fun x => gaussian q (f x) (g x) (h x)) a b.
Proof.
  unfold double_gaussian. rewrite rule_sum_swap. rewrite gaussian_eq, <- rule_sum_scal.
  apply rule_sum_ext. intros x. unfold remap_interval. cbn zeta. rewrite gaussian_eq, <- !rule_sum_scal.
  apply rule_sum_ext. intros y. ring.
Qed.

Lemma paired_is_componentwise q fs a b g h :
  paired_double_gaussian q fs a b g h =
  (double_gaussian q (fun x y => fst (fs x y)) a b g h, double_gaussian q (fun x y => snd (fs x y)) a b g h).
Proof.
  unfold paired_double_gaussian, double_gaussian. f_equal.
Qed.

(* a concrete exact rule: two-point Gauss-Legendre *)
Definition gl2 : rule := [(- sqrt (1/3), 1); (sqrt (1/3), 1)].
Lemma gl2_moments : moments gl2 3.
Proof.
  assert (Hs : sqrt (1/3) * sqrt (1/3) = 1/3) by (apply sqrt_sqrt; lra).
  intros j Hj. unfold gl2, rule_sum. cbn [fold_right fst snd].
  destruct j as [|[|[|[|j]]]]; try lia; simpl; try lra.
Qed.
Lemma gl2_symmetric : Permutation (mirror gl2) gl2.
Proof. unfold mirror, gl2. cbn. rewrite Ropp_involutive. apply perm_swap. Qed.
