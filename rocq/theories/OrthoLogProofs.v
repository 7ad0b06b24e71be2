(* Lemmas about the weight t^a log(1/t) on [0,1] and its modified moments. *)
From Coq Require Import Reals Psatz.
From Coquelicot Require Import Coquelicot.
From Verif Require Import Base OrthoModel OrthoSpec OrthoProofs OrthoGaussProofs OrthoProps
  OrthoJacobiProofs OrthoIntegralProofs OrthoEvalProofs OrthoPolyProps OrthoLogModel OrthoLogSpec.
Open Scope R_scope.
Local Notation length := List.length.

Lemma near_0 (P : R -> Prop) : (forall e, 0 < e <= 1 -> P e) -> at_right 0 P.
Proof.
  intros H. exists (mkposreal 1 Rlt_0_1). intros y B Hy. apply H. split; [exact Hy|].
  unfold ball in B. simpl in B. unfold AbsRing_ball, abs, minus, plus, opp in B. simpl in B.
  apply Rabs_def2 in B. lra.
Qed.
Lemma log_integral_ext a f g v : (forall t, f t = g t) -> log_integral a f v -> log_integral a g v.
Proof.
  intros E (X & Hl). assert (Q : forall t, lw a f t = lw a g t) by (intros; unfold lw; now rewrite E).
  split.
  - intros e He. apply (ex_RInt_ext (lw a f)); [intros; apply Q|auto].
  - apply (filterlim_ext (fun e => RInt (lw a f) e 1)); [|exact Hl].
    intros e. apply RInt_ext. intros; apply Q.
Qed.
Lemma log_integral_lin a f g u v p q : log_integral a f p -> log_integral a g q ->
  log_integral a (fun t => u * f t + v * g t) (u * p + v * q).
Proof.
  intros (Xf & Lf) (Xg & Lg).
  assert (I : forall e, 0 < e <= 1 -> is_RInt (lw a (fun t => u * f t + v * g t)) e 1
             (u * RInt (lw a f) e 1 + v * RInt (lw a g) e 1)).
  { intros e He.
    apply (is_RInt_ext (fun t => plus (scal u (lw a f t)) (scal v (lw a g t)))).
    - intros t _. unfold lw, plus, scal. simpl. unfold mult. simpl. ring.
    - apply @is_RInt_plus; apply @is_RInt_scal; apply (RInt_correct (V := R_CompleteNormedModule)); auto. }
  split.
  - intros e He. eexists. now apply I.
  - apply (filterlim_ext_loc (fun e => plus (scal u (RInt (lw a f) e 1)) (scal v (RInt (lw a g) e 1)))).
    + apply near_0. intros e He. symmetry. apply is_RInt_unique. now apply I.
    + eapply filterlim_comp_2.
      * eapply filterlim_comp; [exact Lf|apply (filterlim_scal_r u p)].
      * eapply filterlim_comp; [exact Lg|apply (filterlim_scal_r v q)].
      * apply (filterlim_plus (V := R_NormedModule)).
Qed.
Lemma log_integral_unique a f v w : log_integral a f v -> log_integral a f w -> v = w.
Proof. intros (_ & A) (_ & B). exact (filterlim_locally_unique _ _ _ A B). Qed.

(* the moments *)
Definition anti (s t : R) : R := Rpower t s * - ln t / s + Rpower t s / s ^ 2.
Lemma anti_derive s t : 0 < s -> 0 < t -> is_derive (anti s) t (Rpower t (s - 1) * - ln t).
Proof.
  intros Hs Ht. unfold anti, Rpower.
  replace (exp ((s - 1) * ln t)) with (exp (s * ln t) / t).
  2:{ replace ((s - 1) * ln t) with (s * ln t + - ln t) by ring. rewrite exp_plus, exp_Ropp, exp_ln by assumption. reflexivity. }
  auto_derive; [tauto|]. field. lra.
Qed.
Lemma anti_0 s : 0 < s -> filterlim (anti s) (at_right 0) (locally 0).
Proof.
  intros Hs.
  assert (A : is_lim (fun x => x * exp x) m_infty 0) by apply is_lim_mul_exp_m.
  assert (B : is_lim exp m_infty 0) by apply is_lim_exp_m.
  assert (Lm : filterlim (fun e => s * ln e) (at_right 0) (Rbar_locally m_infty)).
  { eapply filterlim_comp; [exact is_lim_ln_0|].
    intros P (M & HM). exists (M / s). intros y Hy. apply HM.
    apply (Rmult_lt_compat_l s) in Hy; [|assumption]. replace (s * (M / s)) with M in Hy by (field; lra). exact Hy. }
  assert (A' : filterlim (fun e => (s * ln e) * exp (s * ln e)) (at_right 0) (locally 0)) by exact (filterlim_comp _ _ _ (fun e => s * ln e) (fun x => x * exp x) _ _ _ Lm A).
  assert (B' : filterlim (fun e => exp (s * ln e)) (at_right 0) (locally 0)) by exact (filterlim_comp _ _ _ (fun e => s * ln e) exp _ _ _ Lm B).
  apply (filterlim_ext (fun e => plus (scal (- / s ^ 2) ((s * ln e) * exp (s * ln e))) (scal (/ s ^ 2) (exp (s * ln e))))).
  { intros e. unfold anti, Rpower, plus, scal. simpl. unfold mult. simpl. field. lra. }
  replace 0 with (plus (scal (- / s ^ 2) 0) (scal (/ s ^ 2) 0)) at 2 by (unfold plus, scal; simpl; unfold mult; simpl; ring).
  eapply filterlim_comp_2.
  - eapply filterlim_comp; [exact A'|apply (filterlim_scal_r (- / s ^ 2) 0)].
  - eapply filterlim_comp; [exact B'|apply (filterlim_scal_r (/ s ^ 2) 0)].
  - apply (filterlim_plus (V := R_NormedModule)).
Qed.
Lemma Rpower_shift t a j : 0 < t -> t ^ j * Rpower t a = Rpower t (a + INR j).
Proof. intros. rewrite Rpower_plus, Rpower_pow by assumption. ring. Qed.
Lemma moment a j : -1 < a -> log_integral a (fun t => t ^ j) (/ (a + INR j + 1) ^ 2).
Proof.
  intros Ha. pose proof (pos_INR j). set (s := a + INR j + 1). assert (Hs : 0 < s) by (unfold s; lra).
  assert (I : forall e, 0 < e <= 1 -> is_RInt (lw a (fun t => t ^ j)) e 1 (/ s ^ 2 - anti s e)).
  { intros e He. 
    apply (is_RInt_ext (fun t => Rpower t (s - 1) * - ln t)).
    { intros t Ht. rewrite Rmin_left in Ht by lra. unfold lw. rewrite <- Rmult_assoc, Rpower_shift by lra.
      f_equal. f_equal. unfold s. ring. }
    replace (/ s ^ 2 - anti s e) with (minus (anti s 1) (anti s e)).
    2:{ unfold anti at 1. rewrite ln_1. unfold Rpower at 1 2. rewrite ln_1, Rmult_0_r, exp_0. unfold minus, plus, opp. simpl. field. lra. }
    apply (is_RInt_derive (anti s)).
    - intros t Ht. rewrite Rmin_left, Rmax_right in Ht by lra. apply anti_derive; lra.
    - intros t Ht. rewrite Rmin_left, Rmax_right in Ht by lra.
      apply (ex_derive_continuous (fun t => Rpower t (s - 1) * - ln t)). unfold Rpower. auto_derive. lra. }
  split.
  - intros e He. eexists. now apply I.
  - apply (filterlim_ext_loc (fun e => plus (/ s ^ 2) (opp (anti s e)))).
    + apply near_0. intros e He. symmetry. apply is_RInt_unique. now apply I.
    + assert (E : plus (/ s ^ 2) (opp 0) = / s ^ 2) by (unfold plus, opp; simpl; ring).
      refine (eq_rect _ (fun v => filterlim _ _ (locally v)) _ _ E).
      eapply (filterlim_comp_2 (fun _ => / s ^ 2) (fun e => opp (anti s e)) plus);
        [apply filterlim_const| |apply (filterlim_plus (V := R_NormedModule))].
      exact (filterlim_comp _ _ _ (anti s) opp _ _ _ (anti_0 s Hs) (filterlim_opp (V := R_NormedModule) 0)).
Qed.
Lemma poly_log_integral a d c : -1 < a ->
  log_integral a (fun t => sumn (fun j => c j * t ^ j) d) (sumn (fun j => c j * / (a + INR j + 1) ^ 2) d).
Proof.
  intros Ha. induction d as [|d IH].
  - apply (log_integral_ext a (fun t => 0 * t ^ 0 + 0 * t ^ 0)); [intros; cbn [sumn]; ring|].
    assert (E : 0 * / (a + INR 0 + 1) ^ 2 + 0 * / (a + INR 0 + 1) ^ 2 = 0) by ring.
    refine (eq_rect _ (log_integral a _) _ _ E). apply log_integral_lin; now apply moment.
  - apply (log_integral_ext a (fun t => 1 * sumn (fun j => c j * t ^ j) d + c d * t ^ d)); [intros; cbn [sumn]; ring|].
    assert (E : 1 * sumn (fun j => c j * / (a + INR j + 1) ^ 2) d + c d * / (a + INR d + 1) ^ 2
                = sumn (fun j => c j * / (a + INR j + 1) ^ 2) (S d)) by (cbn [sumn]; ring).
    refine (eq_rect _ (log_integral a _) _ _ E).
    apply (log_integral_lin a (fun t => sumn (fun j => c j * t ^ j) d) (fun t => t ^ d)); [exact IH|now apply moment].
Qed.

(* the functional *)
Definition logint (a : R) (f : R -> R) : R := real (Lim (fun e => RInt (lw a f) e 1) 0).
Lemma loc_seq_right : filterlim (fun n => Rbar_loc_seq 0 n) Hierarchy.eventually (at_right 0).
Proof.
  intros P (eps & HP).
  pose proof (is_lim_seq_Rbar_loc_seq 0) as L. simpl in L.
  destruct (L (ball 0 eps) (locally_ball _ _)) as (N & HN).
  exists N. intros n Hn. apply HP; [now apply HN|]. simpl. pose proof (INRp1_pos n) as Q.
  rewrite Rplus_0_l. apply Rinv_0_lt_compat. exact Q.
Qed.
Lemma logint_is a f v : log_integral a f v -> logint a f = v.
Proof.
  intros (_ & L). unfold logint, Lim.
  rewrite (is_lim_seq_unique _ v); [reflexivity|].
  exact (filterlim_comp _ _ _ _ _ _ _ _ loc_seq_right L).
Qed.
Lemma logint_correct a f : -1 < a -> polynomial f -> log_integral a f (logint a f).
Proof.
  intros Ha (d & c & E).
  assert (I : log_integral a f (sumn (fun j => c j * / (a + INR j + 1) ^ 2) d))
    by (eapply log_integral_ext; [|apply (poly_log_integral a d c Ha)]; intros; now rewrite E).
  now rewrite (logint_is _ _ _ I).
Qed.
Lemma logint_functional a : -1 < a -> functional (logint a).
Proof.
  intros Ha. split.
  - intros f g E. unfold logint. f_equal. apply Lim_ext. intros e. apply RInt_ext. intros. unfold lw. now rewrite E.
  - intros f g u v Hf Hg. apply logint_is. apply log_integral_lin; now apply logint_correct.
Qed.
Lemma sumn_shift (g : nat -> R) d : sumn (fun j => match j with O => 0 | S i => g i end) (S d) = sumn g d.
Proof. induction d as [|m IH]; [cbn [sumn]; ring|]. cbn [sumn] in *. rewrite IH. reflexivity. Qed.
Lemma logint_shift a f : -1 < a -> polynomial f -> logint a (fun t => t * f t) = logint (a + 1) f.
Proof.
  intros Ha (d & c & E). 
  rewrite (logint_is (a + 1) f (sumn (fun j => c j * / (a + INR (S j) + 1) ^ 2) d)).
  2:{ apply (log_integral_ext _ (fun t => sumn (fun j => c j * t ^ j) d)); [intros; now rewrite E|].
      rewrite (sumn_ext _ (fun j => c j * / (a + 1 + INR j + 1) ^ 2)) by (intros; rewrite S_INR; do 3 f_equal; ring).
      apply poly_log_integral. lra. }
  apply logint_is.
  destruct (poly_log_integral a (S d) (fun j => match j with O => 0 | S i => c i end) Ha) as (X & L).
  pose proof (fun g => sumn_shift g d) as S0.
  apply (log_integral_ext a (fun t => sumn (fun j => (match j with O => 0 | S i => c i end) * t ^ j) (S d))).
  - intros t. rewrite E, <- sumn_scal.
    rewrite <- S0. apply sumn_ext. intros [|i] _; simpl; ring.
  - rewrite <- S0. erewrite sumn_ext; [split; [exact X|exact L]|].
    intros [|i] _; ring.
Qed.

(* ---- positivity ---- *)
Lemma pow_derive n c x : is_derive (fun y => c * y ^ n) x (c * INR n * x ^ pred n).
Proof. auto_derive; [exact I|]. ring. Qed.
Lemma monic_nonzero d : forall c u v, u < v ->
  ~ (forall x, u < x < v -> x ^ d + sumn (fun j => c j * x ^ j) d = 0).
Proof.
  induction d as [|d IH]; intros c u v Huv H.
  - specialize (H ((u + v) / 2) ltac:(lra)). cbn in H. lra.
  - apply (IH (fun j => c (S j) * INR (S j) / INR (S d)) u v Huv). intros x Hx.
    assert (Hd : INR (S d) <> 0) by (apply not_0_INR; discriminate).
    assert (D0 : is_derive (fun y => y ^ S d + sumn (fun j => c j * y ^ j) (S d)) x 0).
    { apply (is_derive_ext_loc (fun _ => 0)).
      - assert (He : 0 < Rmin (x - u) (v - x)) by (apply Rmin_pos; lra).
        exists (mkposreal _ He). intros y By. symmetry. apply H.
        unfold ball in By. simpl in By. unfold AbsRing_ball, abs, minus, plus, opp in By. simpl in By.
        apply Rabs_def2 in By. pose proof (Rmin_l (x - u) (v - x)). pose proof (Rmin_r (x - u) (v - x)). lra.
      - apply (is_derive_const 0 x). }
    assert (Ds : forall m, is_derive (fun y => sumn (fun j => c j * y ^ j) (S m)) x (sumn (fun j => c (S j) * INR (S j) * x ^ j) m)).
    { induction m as [|m IHm].
      - apply (is_derive_ext (fun _ => c O)); [intros; cbn; ring|]. apply (is_derive_const (c O) x).
      - apply (is_derive_ext (fun y => sumn (fun j => c j * y ^ j) (S m) + c (S m) * y ^ S m)); [reflexivity|].
        cbn [sumn]. apply @is_derive_plus; [exact IHm|].
        exact (pow_derive (S m) (c (S m)) x). }
    assert (D1 : is_derive (fun y => y ^ S d + sumn (fun j => c j * y ^ j) (S d)) x
              (INR (S d) * x ^ d + sumn (fun j => c (S j) * INR (S j) * x ^ j) d)).
    { apply @is_derive_plus; [|apply Ds].
      apply (is_derive_ext (fun y => 1 * y ^ S d)); [intros; apply Rmult_1_l|].
      replace (INR (S d) * x ^ d) with (1 * INR (S d) * x ^ d) by ring. exact (pow_derive (S d) 1 x). }
    pose proof (is_derive_unique _ _ _ D0) as E0. rewrite (is_derive_unique _ _ _ D1) in E0.
    rewrite (sumn_ext _ (fun j => / INR (S d) * (c (S j) * INR (S j) * x ^ j))) by (intros; unfold Rdiv; ring).
    rewrite sumn_scal. apply (Rmult_eq_reg_l (INR (S d))); [|exact Hd].
    rewrite Rmult_plus_distr_l, <- Rmult_assoc, Rinv_r, Rmult_0_r, Rmult_1_l by exact Hd. exact E0.
Qed.
Lemma lw_continuous a f t : 0 < t -> polynomial f -> continuous (lw a f) t.
Proof.
  intros Ht Hf. unfold lw. apply (continuous_mult f (fun t => Rpower t a * - ln t)); [now apply continuous_polynomial|].
  apply (ex_derive_continuous (fun t => Rpower t a * - ln t)). unfold Rpower. auto_derive. tauto.
Qed.
Lemma weight_pos a t : 0 < t < 1 -> 0 < Rpower t a * - ln t.
Proof.
  intros H. apply Rmult_lt_0_compat; [apply exp_pos|]. pose proof (ln_increasing t 1 ltac:(lra) ltac:(lra)). rewrite ln_1 in *. lra.
Qed.
Lemma lw_ex a f u v : 0 < u -> 0 < v -> polynomial f -> ex_RInt (lw a f) u v.
Proof.
  intros Hu Hv Hf. apply @ex_RInt_continuous. intros z (Hz & _). apply lw_continuous; [|exact Hf].
  apply Rlt_le_trans with (2 := Hz). now apply Rmin_pos.
Qed.
Lemma logint_positive a N : -1 < a -> positive (logint a) N.
Proof.
  intros Ha d f Hd Hf. destruct (Hf) as (c & Ec).
  set (g := fun x => x ^ d + f x). set (P := fun x => g x * g x).
  assert (Pg : polynomial g).
  { exists (S d). apply (poly_plus (S d)); [apply poly_pow|]. apply (poly_weaken d); [lia|exact Hf]. }
  assert (PP : polynomial P) by now apply polynomial_mult.
  change (0 < logint a P).
  assert (Pn : forall t, 0 < t < 1 -> 0 <= lw a P t).
  { intros t Ht. unfold lw, P. apply Rmult_le_pos; [nra|]. left. now apply weight_pos. }
  assert (J : 0 < RInt (lw a P) (1 / 4) (1 / 2)).
  { destruct (Rle_lt_or_eq_dec 0 (RInt (lw a P) (1 / 4) (1 / 2))) as [?|E]; [|assumption|exfalso].
    - apply RInt_ge_0; [lra|apply lw_ex; try assumption; lra|]. intros; apply Pn; lra.
    - apply (monic_nonzero d c (1 / 4) (1 / 2)); [lra|]. intros x Hx. rewrite <- Ec. change (g x = 0).
      destruct (Req_EM_T (g x) 0) as [?|NZ]; [assumption|exfalso].
      assert (Hp : 0 < lw a P x).
      { unfold lw, P. apply Rmult_lt_0_compat; [nra|apply weight_pos; lra]. }
      assert (Cx : continuous (lw a P) x) by (apply lw_continuous; [lra|assumption]).
      destruct (Cx (fun y => 0 < y) (open_gt 0 _ Hp)) as (eps & Heps).
      set (r := Rmin (eps / 2) (1 / 2 - x)). assert (Hr : 0 < r) by (apply Rmin_pos; [destruct eps; simpl; lra|lra]).
      assert (Rr : r <= eps / 2 /\ r <= 1 / 2 - x) by (split; [apply Rmin_l|apply Rmin_r]).
      assert (Q : 0 < RInt (lw a P) x (x + r)).
      { apply RInt_gt_0; [lra| |].
        - intros y Hy. apply Heps. unfold ball. simpl. unfold AbsRing_ball, abs, minus, plus, opp. simpl.
          rewrite Rabs_right; [|lra]. destruct eps as [eps He]; simpl in *. lra.
        - intros y Hy. apply lw_continuous; [lra|assumption]. }
      pose proof (RInt_Chasles (lw a P) (1 / 4) x (x + r) ltac:(apply lw_ex; try assumption; lra) ltac:(apply lw_ex; try assumption; lra)) as C1.
      pose proof (RInt_Chasles (lw a P) (1 / 4) (x + r) (1 / 2) ltac:(apply lw_ex; try assumption; lra) ltac:(apply lw_ex; try assumption; lra)) as C2.
      unfold plus in C1, C2. simpl in C1, C2.
      assert (0 <= RInt (lw a P) (1 / 4) x) by (apply RInt_ge_0; [lra|apply lw_ex; try assumption; lra|intros; apply Pn; lra]).
      assert (0 <= RInt (lw a P) (x + r) (1 / 2)) by (apply RInt_ge_0; [lra|apply lw_ex; try assumption; lra|intros; apply Pn; lra]).
      lra. }
  destruct (logint_correct a P Ha PP) as (_ & Lm).
  apply Rlt_le_trans with (1 := J).
  refine (filterlim_le (F := at_right 0) (fun _ => RInt (lw a P) (1 / 4) (1 / 2)) _ (Finite _) (Finite _) _ _ Lm).
  - exists (mkposreal (1 / 4) ltac:(lra)). intros e Be He.
    unfold ball in Be. simpl in Be. unfold AbsRing_ball, abs, minus, plus, opp in Be. simpl in Be. apply Rabs_def2 in Be.
    pose proof (RInt_Chasles (lw a P) e (1 / 4) 1 ltac:(apply lw_ex; try assumption; lra) ltac:(apply lw_ex; try assumption; lra)) as C1.
    pose proof (RInt_Chasles (lw a P) (1 / 4) (1 / 2) 1 ltac:(apply lw_ex; try assumption; lra) ltac:(apply lw_ex; try assumption; lra)) as C2.
    unfold plus in C1, C2. simpl in C1, C2.
    assert (0 <= RInt (lw a P) e (1 / 4)) by (apply RInt_ge_0; [lra|apply lw_ex; try assumption; lra|intros; apply Pn; lra]).
    assert (0 <= RInt (lw a P) (1 / 2) 1) by (apply RInt_ge_0; [lra|apply lw_ex; try assumption; lra|intros; apply Pn; lra]).
    lra.
  - apply filterlim_const.
Qed.

(* ---- the modified moments ---- *)
Definition ratio (n : nat) : R := / 2 * (INR n + 1) / (2 * INR n + 1).
Fixpoint Q (n : nat) (s : R) : R :=
  match n with O => / (s + 1) | S m => Q m s * ratio m * (s - INR m) / (s + INR m + 2) end.
Definition lal (_ : nat) : R := / 2.
Definition lbe (k : nat) : R := INR k ^ 2 / (4 * (4 * INR k ^ 2 - 1)).
Lemma Q_shift n s : -1 < s -> Q (S n) (s + 1) = Q n s * ratio n * (s + 1) ^ 2 / ((s + INR n + 2) * (s + INR n + 3)).
Proof.
  intros Hs. induction n as [|n IH].
  - cbn [Q]. unfold ratio. simpl INR. field. lra.
  - change (Q (S (S n)) (s + 1)) with (Q (S n) (s + 1) * ratio (S n) * (s + 1 - INR (S n)) / (s + 1 + INR (S n) + 2)).
    rewrite IH. cbn [Q]. rewrite S_INR. pose proof (pos_INR n). generalize (Q n s) (ratio n) (ratio (S n)). intros. field. lra.
Qed.
Lemma Q_rec n s : -1 < s -> Q (S (S n)) s = Q (S n) (s + 1) - / 2 * Q (S n) s - lbe (S n) * Q n s.
Proof.
  intros Hs. rewrite Q_shift by assumption. cbn [Q]. unfold ratio, lbe. rewrite S_INR. pose proof (pos_INR n).
  generalize (Q n s). intros q. field. repeat split; try lra; nra.
Qed.
Lemma Q_rec1 s : -1 < s -> Q 1 s = Q 0 (s + 1) - / 2 * Q 0 s.
Proof. intros. cbn [Q]. unfold ratio. simpl INR. field. lra. Qed.
Lemma logint_1 s : -1 < s -> logint s (fun _ => 1) = / (s + 1) ^ 2.
Proof.
  intros Hs. apply logint_is. apply (log_integral_ext s (fun t => t ^ 0)); [reflexivity|].
  replace (s + 1) with (s + INR 0 + 1) by (simpl; ring). now apply moment.
Qed.
Lemma G_1 s : -1 < s -> logint s (monic lal lbe 1) = logint (s + 1) (monic lal lbe 0) - / 2 * logint s (monic lal lbe 0).
Proof.
  intros Hs. pose proof (logint_functional s Hs) as F.
  rewrite (proj1 F _ (fun t => 1 * (t * monic lal lbe 0 t) + (- / 2) * monic lal lbe 0 t))
    by (intros; rewrite monic_1, monic_0; unfold lal; ring).
  rewrite (proj2 F); [|apply polynomial_mult; [apply polynomial_x|apply polynomial_monic]|apply polynomial_monic].
  rewrite logint_shift by (try assumption; apply polynomial_monic). ring.
Qed.
Lemma G_SS n s : -1 < s -> logint s (monic lal lbe (S (S n)))
  = logint (s + 1) (monic lal lbe (S n)) - / 2 * logint s (monic lal lbe (S n)) - lbe (S n) * logint s (monic lal lbe n).
Proof.
  intros Hs. pose proof (logint_functional s Hs) as F.
  rewrite (proj1 F _ (fun t => 1 * (t * monic lal lbe (S n) t) + (- / 2) * monic lal lbe (S n) t + (- lbe (S n)) * monic lal lbe n t))
    by (intros; rewrite monic_SS; unfold lal; ring).
  rewrite functional_3; auto using polynomial_monic.
  2:{ apply polynomial_mult; [apply polynomial_x|apply polynomial_monic]. }
  rewrite logint_shift by (try assumption; apply polynomial_monic). ring.
Qed.
Lemma above s : -1 < s -> locally s (fun y => -1 < y).
Proof. intros H. apply (open_gt (-1) s H). Qed.
Lemma Q_derive_G n : forall s, -1 < s -> is_derive (Q n) s (- logint s (monic lal lbe n)).
Proof.
  assert (Sh : forall n s v, -1 < s -> is_derive (Q n) (s + 1) v -> is_derive (fun y => Q n (y + 1)) s v).
  { intros m s v Hs H. replace v with (scal 1 v) by apply Rmult_1_l.
    apply (is_derive_comp (Q m) (fun y => y + 1)); [exact H|]. auto_derive; [exact I|ring]. }
  induction n as [n IH] using lt_wf_ind. intros s Hs. destruct n as [|[|n]].
  - rewrite (proj1 (logint_functional s Hs) _ (fun _ => 1)) by (intros; apply monic_0). rewrite logint_1 by assumption.
    cbn [Q]. auto_derive; [lra|]. field. lra.
  - apply (is_derive_ext_loc (fun y => minus (Q 0 (y + 1)) (scal (/ 2) (Q 0 y)))).
    { apply (filter_imp _ _ (fun y Hy => eq_sym (Q_rec1 y Hy))). now apply above. }
    rewrite G_1 by assumption.
    replace (- _) with (minus (- logint (s + 1) (monic lal lbe 0)) (scal (/ 2) (- logint s (monic lal lbe 0))))
      by (unfold minus, plus, opp, scal; simpl; unfold mult; simpl; ring).
    apply @is_derive_minus; [apply Sh; [assumption|apply IH; [lia|lra]]|]. apply @is_derive_scal. apply IH; [lia|lra].
  - apply (is_derive_ext_loc (fun y => minus (minus (Q (S n) (y + 1)) (scal (/ 2) (Q (S n) y))) (scal (lbe (S n)) (Q n y)))).
    { apply (filter_imp _ _ (fun y Hy => eq_sym (Q_rec n y Hy))). now apply above. }
    rewrite G_SS by assumption.
    replace (- _) with (minus (minus (- logint (s + 1) (monic lal lbe (S n))) (scal (/ 2) (- logint s (monic lal lbe (S n)))))
         (scal (lbe (S n)) (- logint s (monic lal lbe n))))
      by (unfold minus, plus, opp, scal; simpl; unfold mult; simpl; ring).
    apply @is_derive_minus; [apply @is_derive_minus; [apply Sh; [assumption|apply IH; [lia|lra]]|]|].
    + apply @is_derive_scal. apply IH; [lia|lra].
    + apply @is_derive_scal. apply IH; [lia|lra].
Qed.
(* the derivative from the factors *)
Fixpoint W (n : nat) (s : R) : R :=
  match n with
  | O => - / (s + 1) ^ 2
  | S m => ratio m * (W m s * (s - INR m) / (s + INR m + 2) + Q m s * (2 * INR m + 2) / (s + INR m + 2) ^ 2)
  end.
Lemma Q_derive_W n s : -1 < s -> is_derive (Q n) s (W n s).
Proof.
  intros Hs. induction n as [|n IH].
  - cbn [Q W]. auto_derive; [lra|]. field. lra.
  - cbn [W]. pose proof (pos_INR n).
    assert (D : is_derive (fun y => ratio n * (y - INR n) / (y + INR n + 2)) s (ratio n * (2 * INR n + 2) / (s + INR n + 2) ^ 2)).
    { auto_derive; [lra|]. field. lra. }
    apply (is_derive_ext (fun y => mult (Q n y) (ratio n * (y - INR n) / (y + INR n + 2)))).
    { intros y. cbn [Q]. unfold mult. simpl. unfold Rdiv. ring. }
    assert (E : plus (mult (W n s) (ratio n * (s - INR n) / (s + INR n + 2)))
        (mult (Q n s) (ratio n * (2 * INR n + 2) / (s + INR n + 2) ^ 2))
        = ratio n * (W n s * (s - INR n) / (s + INR n + 2) + Q n s * (2 * INR n + 2) / (s + INR n + 2) ^ 2)).
    { unfold plus, mult. simpl. unfold Rdiv. ring. }
    refine (eq_rect _ (is_derive _ s) _ _ E).
    refine (is_derive_mult (Q n) (fun y => ratio n * (y - INR n) / (y + INR n + 2)) s (W n s) _ IH D _). intros. apply Rmult_comm.
Qed.
Lemma G_W n s : -1 < s -> logint s (monic lal lbe n) = - W n s.
Proof.
  intros Hs. pose proof (is_derive_unique _ _ _ (Q_derive_G n s Hs)) as E.
  rewrite (is_derive_unique _ _ _ (Q_derive_W n s Hs)) in E. rewrite E. ring.
Qed.

(* the entries of the code *)
Lemma W_array m s x : -1 < s -> array_entry s m = Some x -> x * factor m = - W m s.
Proof.
  intros Hs. unfold array_entry. cbv zeta.
  destruct (existsb _ _) eqn:X; [discriminate|]. intros H. injection H as <-.
  assert (NZ : forall k, (1 <= k <= m)%nat -> s + 1 - INR k <> 0).
  { intros k Hk Z. assert (T : existsb (fun k => if Req_EM_T (s + 1 - k) 0 then true else false) (map INR (seq 1 m)) = true).
    { apply existsb_exists. exists (INR k). split; [apply in_map; apply in_seq; lia|]. destruct (Req_EM_T _ 0); [reflexivity|contradiction]. }
    congruence. }
  clear X.
  assert (P : factor m * prod (map (fun k => (s + 1 - k) / (s + 1 + k)) (map INR (seq 1 m))) / (s + 1) = Q m s).
  { clear NZ. induction m as [|m IH]; [cbn; field; lra|].
    rewrite seq_S, !map_app. unfold prod in *. rewrite fold_left_app. cbn [map fold_left Nat.add factor Q]. rewrite <- IH.
    rewrite S_INR. unfold ratio. pose proof (pos_INR m). field. lra. }
  assert (D : (1 / (s + 1) + total_of (map (fun k => 1 / (s + 1 + k) - 1 / (s + 1 - k)) (map INR (seq 1 m)))) * Q m s = - W m s).
  { clear P. induction m as [|m IH]; [cbn; field; lra|].
    specialize (IH ltac:(intros; apply NZ; lia)). pose proof (NZ (S m) ltac:(lia)) as N1.
    rewrite seq_S, !map_app. unfold total_of in *. rewrite fold_left_app. cbn [map fold_left Nat.add Q W].
    replace (W m s) with (- - W m s) by ring. rewrite <- IH. rewrite S_INR in *.
    pose proof (pos_INR m). generalize (fold_left Rplus (map (fun k => 1 / (s + 1 + k) - 1 / (s + 1 - k)) (map INR (seq 1 m))) 0) (Q m s) (ratio m).
    intros. field. repeat split; lra. }
  rewrite <- D, <- P. unfold Rdiv. ring.
Qed.
Lemma fact_R n : INR (fact (S n)) = (INR n + 1) * INR (fact n).
Proof. change (fact (S n)) with (S n * fact n)%nat. now rewrite mult_INR, S_INR. Qed.
Lemma Q_int m n : (n <= m)%nat ->
  Q n (INR m) = factor n * (INR (fact m) * INR (fact m)) / (INR (fact (m - n)) * INR (fact (m + n + 1))).
Proof.
  induction n as [|n IH]; intros H.
  - rewrite Nat.sub_0_r, Nat.add_0_r, Nat.add_1_r, fact_R. cbn [Q factor]. pose proof (pos_INR m).
    pose proof (INR_fact_neq_0 m). field. split; [assumption|lra].
  - cbn [Q factor]. rewrite IH by lia.
    replace (m - n)%nat with (S (m - S n)) by lia. replace (m + S n + 1)%nat with (S (m + n + 1)) by lia.
    rewrite !fact_R, minus_INR, !plus_INR, S_INR by lia. simpl (INR 1). unfold ratio. pose proof (pos_INR m). pose proof (pos_INR n).
    assert (INR n + 1 <= INR m) by (rewrite <- S_INR; now apply le_INR).
    pose proof (INR_fact_neq_0 (m - S n)). pose proof (INR_fact_neq_0 (m + n + 1)).
    field. repeat split; try assumption; lra.
Qed.
Lemma Q_int_0 m j : Q (S m + j) (INR m) = 0.
Proof.
  induction j as [|j IH].
  - rewrite Nat.add_0_r. cbn [Q]. unfold Rdiv. ring.
  - rewrite Nat.add_succ_r. cbn [Q Nat.add] in *. rewrite IH. unfold Rdiv. ring.
Qed.
Lemma W_int m j : W (S m + j) (INR m)
  = - ((-1) ^ S j * (INR (fact m) * INR (fact m)) * INR (fact j) / INR (fact (m + m + j + 2)) * factor (S m + j)).
Proof.
  induction j as [|j IH].
  - rewrite !Nat.add_0_r. cbn [W factor]. rewrite Q_int, Nat.sub_diag by lia.
    replace (m + m + 2)%nat with (S (m + m + 1)) by lia. rewrite fact_R, !plus_INR. simpl (INR 1). simpl (fact 0). simpl (INR 1).
    fold (ratio m). pose proof (pos_INR m). pose proof (INR_fact_neq_0 (m + m + 1)). generalize (ratio m) (factor m). intros.
    field. repeat split; try assumption; lra.
  - rewrite Nat.add_succ_r. cbn [W]. rewrite IH, Q_int_0. cbn [factor]. fold (ratio (S m + j)).
    replace (m + m + S j + 2)%nat with (S (m + m + j + 2)) by lia. rewrite !fact_R, !plus_INR, S_INR. simpl (INR 2).
    rewrite <- (tech_pow_Rmult (-1) (S j)). pose proof (pos_INR m). pose proof (pos_INR j). pose proof (INR_fact_neq_0 (m + m + j + 2)).
    generalize (ratio (S m + j)) (factor (S m + j)) ((-1) ^ S j). intros. field. repeat split; try assumption; lra.
Qed.
Lemma prod_range w l : prod (map (fun i => INR (S w + i)) (seq 0 l)) * INR (fact w) = INR (fact (w + l)).
Proof.
  induction l as [|l IH]; [rewrite Nat.add_0_r; cbn; ring|].
  rewrite seq_S, map_app. unfold prod in *. rewrite fold_left_app. cbn [map fold_left].
  replace (w + S l)%nat with (S (w + l)) by lia. rewrite fact_R, <- IH. cbn [Nat.add]. rewrite S_INR, !plus_INR. simpl (INR 0). ring.
Qed.
Lemma Some_inj {A} (x y : A) : Some x = Some y -> x = y.
Proof. congruence. Qed.
Lemma log_moment_value gamma a n x : gamma_ok gamma -> -1 < value a ->
  log_moment gamma a n = Some x -> logint (value a) (monic lal lbe n) = x.
Proof.
  intros HG Ha. unfold log_moment, raw_entry. cbv zeta. rewrite G_W by assumption.
  assert (O : forall y, match n with O => Some (1 / (value a + 1) ^ 2) | S _ => array_entry (value a) n end = Some y ->
                        y * factor n = - W n (value a)).
  { intros y. destruct n as [|n].
    - intros H. injection H as <-. cbn [factor W]. field. lra.
    - now apply W_array. }
  destruct a as [z|u].
  2:{ destruct (match n with O => _ | S _ => _ end) as [y|]; [|discriminate]. intros H. injection H as <-. symmetry. now apply O. }
  destruct (Z.ltb_spec z (Z.of_nat n)) as [Hz|Hz].
  2:{ destruct (match n with O => _ | S _ => _ end) as [y|]; [|discriminate]. intros H. injection H as <-. symmetry. now apply O. }
  clear O. intros H. apply Some_inj in H. rewrite <- H. clear H. cbn [value] in *.
  assert (Z0 : (0 <= z)%Z) by (assert (-1 < z)%Z by (now apply lt_IZR); lia).
  set (m := Z.to_nat z). assert (Em : z = Z.of_nat m) by (unfold m; lia). rewrite Em in *. clearbody m. clear z Em Z0.
  rewrite <- INR_IZR_INZ. set (j := (n - S m)%nat). assert (En : n = (S m + j)%nat) by (unfold j; lia). rewrite En. clearbody j. clear n En Hz.
  rewrite W_int, HG.
  rewrite (map_ext _ (fun i => INR (S j + i))).
  2:{ intros i. rewrite INR_IZR_INZ. f_equal. lia. }
  replace (Z.to_nat (Z.of_nat (S m + j) - Z.of_nat m)) with (S j) by lia.
  replace (Z.to_nat (2 * Z.of_nat m + 2)) with (m + m + 2)%nat by lia.
  pose proof (prod_range j (m + m + 2)) as P. replace (j + (m + m + 2))%nat with (m + m + j + 2)%nat in P by lia.
  rewrite <- P. pose proof (INR_fact_neq_0 j). pose proof (INR_fact_neq_0 (m + m + j + 2)) as NZ. rewrite <- P in NZ.
  assert (prod (map (fun i => INR (S j + i)) (seq 0 (m + m + 2))) <> 0) by (intros Z; apply NZ; rewrite Z; ring).
  field. split; assumption.
Qed.
