From Coq Require Import Reals Lra Psatz.
From Verif Require Import Base IntegratorsModel IntegratorsProofs ParamsModel ParamsProofs EvolveModel KawanoModel.
Open Scope R_scope.

Lemma qnp_pos : 0 < qnp.
Proof. unfold qnp. pose proof MeV_pos. lra. Qed.
Lemma me_pos : 0 < m_e.
Proof. unfold m_e. pose proof MeV_pos. lra. Qed.
Lemma me_lt_q : m_e < qnp.
Proof. unfold m_e, qnp. pose proof MeV_pos. lra. Qed.
Lemma norm_pos : 0 < rate_normalization.
Proof. unfold rate_normalization. pose proof MeV_pos. apply Rdiv_lt_0_compat; [lra|]. apply pow_lt. lra. Qed.
Lemma lifetime_pos : 0 < neutron_lifetime.
Proof.
  unfold neutron_lifetime, second. pose proof MeV_pos. apply Rmult_lt_0_compat; [lra|]. apply Rdiv_lt_0_compat; [|lra].
  apply Rdiv_lt_0_compat; [|lra]. apply pow_lt. lra.
Qed.

(* Fermi-Dirac occupation of an electron (mass m_e) and a massless neutrino at
   the conformal temperature aT *)
Definition thermal (k : kparts) (a aT : R) : Prop :=
  (forall y, fe k y = 1 / (exp (sqrt (y ^ 2 + (m_e * a) ^ 2) / aT) + 1)) /\ (forall y, fnu k y = 1 / (exp (y / aT) + 1)).

Lemma shape_scal a E y o1 o2 c : (forall ye, m_e * a <= E -> ye = sqrt (E ^ 2 - (m_e * a) ^ 2) -> o1 ye = c * o2 ye) ->
  rate_shape a E y o1 = c * rate_shape a E y o2.
Proof.
  intros H. unfold rate_shape. destruct (Rlt_dec E (m_e * a)); [ring|]. rewrite H by (auto; lra). ring.
Qed.

Lemma electron_energy a E : 0 < a -> m_e * a <= E -> sqrt (sqrt (E ^ 2 - (m_e * a) ^ 2) ^ 2 + (m_e * a) ^ 2) = E.
Proof.
  intros Ha HE. pose proof me_pos. assert (0 < m_e * a) by now apply Rmult_lt_0_compat.
  assert (0 <= E ^ 2 - (m_e * a) ^ 2) by nra.
  rewrite pow2_sqrt by auto.
  replace (E ^ 2 - (m_e * a) ^ 2 + (m_e * a) ^ 2) with (Rsqr E) by (unfold Rsqr; ring). apply sqrt_Rsqr. lra.
Qed.

Lemma exp_q a aT u v : 0 < a -> 0 < aT -> u + v = qnp * a -> exp (u / aT) * exp (v / aT) = exp (qnp / (aT / a)).
Proof.
  intros Ha HT H. rewrite <- exp_plus. f_equal. replace (u / aT + v / aT) with ((u + v) / aT) by (field; lra). rewrite H. field. lra.
Qed.

Lemma rates_balance k a aT y : 0 < a -> 0 < aT -> thermal k a aT ->
  rate1 k a y = exp (qnp / (aT / a)) * rate2 k a y /\
  rate3 k a y = exp (qnp / (aT / a)) * rate4 k a y /\
  rate5 k a y = exp (qnp / (aT / a)) * rate6 k a y.
Proof.
  intros Ha HT [He Hn]. unfold rate1, rate2, rate3, rate4, rate5, rate6.
  repeat split; apply shape_scal; intros ye HE ->; rewrite He, Hn, electron_energy by auto; pose proof (exp_pos (y / aT)) as P1.
  - rewrite <- (exp_q a aT (qnp * a + y) (- y)) by (auto; ring). pose proof (exp_pos ((qnp * a + y) / aT)) as P2.
    replace (- y / aT) with (- (y / aT)) by (field; lra). rewrite exp_Ropp. field. lra.
  - rewrite <- (exp_q a aT (qnp * a - y) y) by (auto; ring). pose proof (exp_pos ((qnp * a - y) / aT)) as P2. field. lra.
  - rewrite <- (exp_q a aT (- (- qnp * a + y)) y) by (auto; ring). pose proof (exp_pos ((- qnp * a + y) / aT)) as P2.
    replace (- (- qnp * a + y) / aT) with (- ((- qnp * a + y) / aT)) by (field; lra). rewrite exp_Ropp. field. lra.
Qed.

Lemma channel_scal q k f g lo hi c : (forall y, f y = c * g y) -> channel q k f lo hi = c * channel q k g lo hi.
Proof.
  intros H. unfold channel. destruct (Rlt_dec lo hi); [|ring]. rewrite (gaussian_ext q f (fun y => c * g y)) by auto.
  unfold gaussian. destruct (Req_EM_T _ 0); [ring|]. rewrite rule_sum_scal. ring.
Qed.

Lemma shape_nonneg a E y occ : 0 < a -> (forall ye, 0 <= occ ye) -> 0 <= rate_shape a E y occ.
Proof.
  intros Ha HO. unfold rate_shape. destruct (Rlt_dec E (m_e * a)); [lra|]. pose proof me_pos. assert (0 < m_e * a) by now apply Rmult_lt_0_compat.
  apply Rmult_le_pos; [|apply HO]. apply Rmult_le_pos; [|lra]. apply Rmult_le_pos; [apply pow2_ge_0|apply sqrt_pos].
Qed.

Definition admissible (k : kparts) : Prop := (forall y, 0 <= fe k y <= 1) /\ (forall y, 0 <= fnu k y <= 1) /\ 0 < kpa k.

Lemma channel_nonneg q k f lo hi : Forall (fun nw => 0 <= snd nw) q -> 0 < kpa k -> (forall y, 0 <= f y) -> 0 <= channel q k f lo hi.
Proof.
  intros HQ Hk Hf. unfold channel. destruct (Rlt_dec lo hi); [|lra]. apply Rmult_le_pos.
  - apply Rmult_le_pos; [apply Rlt_le, norm_pos|]. apply Rlt_le, Rinv_0_lt_compat, pow_lt. exact Hk.
  - apply gaussian_nonneg; auto. lra.
Qed.

Lemma rates_nonneg q k a l : Forall (fun nw => 0 <= snd nw) q -> 0 < a -> admissible k -> baryonic_rates q (Some k) a = Ok l ->
  length l = 6%nat /\ Forall (fun r => 0 <= r) l.
Proof.
  intros HQ Ha (H1 & H2 & H3) E. injection E as <-. split; [reflexivity|].
  assert (C : forall u v, 0 <= u <= 1 -> 0 <= v <= 1 -> 0 <= u * v /\ 0 <= (1 - u) * v /\ 0 <= u * (1 - v) /\ 0 <= (1 - u) * (1 - v)).
  { intros u v Hu Hv. repeat split; apply Rmult_le_pos; lra. }
  repeat (apply Forall_cons; [apply channel_nonneg; auto; intros y; apply shape_nonneg; auto; intros ye; apply (C _ _ (H1 ye) (H2 y))|]). apply Forall_nil.
Qed.

(* ---------- the monitor ---------- *)
Lemma step_shape read s m m' : step_monitor read s m = Ok m' ->
  (forall v, ndec m = Some v -> ndec m' = Some v) /\ (forall v, deut m = Some v -> deut m' = Some v) /\ (forall v, est m = Some v -> est m' = Some v) /\
  (forall v, ndec m = None -> ndec m' = Some v -> v = (snT s, snt s)) /\ (forall v, deut m = None -> deut m' = Some v -> v = (snT s, snt s) /\ snT s <= T_BBN) /\
  (deut m = None -> snT s <= T_BBN -> deut m' = Some (snT s, snt s)) /\
  (forall row rest, ndec m = None -> rev (rows s) = row :: rest -> exists rates, read row = Ok rates /\ (ndec m' = Some (snT s, snt s) <-> out_of_balance (xdiv (evens rates) (odds rates)) = true)).
Proof.
  unfold step_monitor. intros E.
  set (m1 := match ndec m, rev (rows s) with None, row :: _ => _ | _, _ => _ end) in E.
  destruct m1 as [m1'|] eqn:E1; [|discriminate]. cbn [rbind] in E. injection E as E.
  assert (A : (ndec m <> None -> m1' = m) /\ (forall v, ndec m = None -> ndec m1' = Some v -> v = (snT s, snt s)) /\ deut m1' = deut m /\ est m1' = est m /\
    (forall row rest, ndec m = None -> rev (rows s) = row :: rest -> exists rates, read row = Ok rates /\ (ndec m1' = Some (snT s, snt s) <-> out_of_balance (xdiv (evens rates) (odds rates)) = true))).
  { unfold m1 in E1. destruct (ndec m) as [v0|] eqn:EN.
    - injection E1 as <-. split; [auto|]. split; [discriminate|]. split; [auto|]. split; [auto|]. discriminate.
    - destruct (rev (rows s)) as [|row rest] eqn:ER.
      + injection E1 as <-. split; [tauto|]. split; [congruence|]. repeat split. intros; discriminate.
      + destruct (read row) as [rates|] eqn:EE; [|discriminate]. cbn [rbind] in E1. injection E1 as E1.
        destruct (out_of_balance _) eqn:EO; subst m1'; cbn.
        * split; [tauto|]. split; [congruence|]. split; [auto|]. split; [auto|]. intros row' rest' _ EQ. injection EQ as <- <-. exists rates. rewrite EE, EO. split; [auto|tauto].
        * split; [tauto|]. split; [congruence|]. split; [auto|]. split; [auto|]. intros row' rest' _ EQ. injection EQ as <- <-. exists rates. rewrite EE, EO. split; [auto|]. rewrite EN. split; discriminate. }
  destruct A as (A1 & A2 & A3 & A4 & A5). clearbody m1. clear E1.
  set (m2 := match deut m1' with None => _ | Some _ => _ end) in E.
  assert (B : ndec m2 = ndec m1' /\ est m2 = est m1' /\ (forall v, deut m1' = Some v -> deut m2 = Some v) /\ (forall v, deut m1' = None -> deut m2 = Some v -> v = (snT s, snt s) /\ snT s <= T_BBN) /\
     (deut m1' = None -> snT s <= T_BBN -> deut m2 = Some (snT s, snt s))).
  { unfold m2. destruct (deut m1') eqn:ED; [repeat split; auto; intros; discriminate || congruence|]. destruct (Rle_dec _ _); cbn; repeat split; auto; intros; try discriminate; try congruence; tauto. }
  destruct B as (B1 & B2 & B3 & B4 & B5). clearbody m2.
  assert (C : ndec m' = ndec m2 /\ deut m' = deut m2 /\ (forall v, est m2 = Some v -> est m' = Some v)).
  { subst m'. destruct (ndec m2) as [[nT nt]|] eqn:E2; [|repeat split; auto]. destruct (deut m2) as [[dT dt]|] eqn:E3; [|repeat split; auto]. destruct (est m2) eqn:E4; cbn; rewrite ?E2, ?E3, ?E4; repeat split; auto; congruence. }
  destruct C as (C1 & C2 & C3). rewrite C1, C2, B1.
  split; [intros v Hv; rewrite A1 by congruence; exact Hv|]. split; [intros v Hv; apply B3; congruence|]. split; [intros v Hv; apply C3; congruence|].
  split; [exact A2|]. split; [intros v H1 H2; apply B4; congruence|]. split; [intros H1 H2; apply B5; congruence|]. exact A5.
Qed.

Lemma run_keeps read ss : forall m m', monitor_run read ss m = Ok m' ->
  (forall v, ndec m = Some v -> ndec m' = Some v) /\ (forall v, deut m = Some v -> deut m' = Some v) /\ (forall v, est m = Some v -> est m' = Some v).
Proof.
  unfold monitor_run. induction ss as [|s ss IH]; intros m m' E; cbn [rfold] in E; [injection E as <-; auto|].
  destruct (step_monitor read s m) as [m1|] eqn:E1; [|discriminate]. destruct (step_shape _ _ _ _ E1) as (A1 & A2 & A3 & _). destruct (IH _ _ E) as (B1 & B2 & B3).
  repeat split; intros v Hv; auto.
Qed.

(* the deuterium parameters are those of the first snapshot at or below T_BBN *)
Lemma run_first_deut read ss : forall m m', monitor_run read ss m = Ok m' -> deut m = None ->
  deut m' = match find (fun s => if Rle_dec (snT s) T_BBN then true else false) ss with Some s => Some (snT s, snt s) | None => None end.
Proof.
  unfold monitor_run. induction ss as [|s ss IH]; intros m m' E HD; cbn [rfold] in E; [injection E as <-; auto|].
  destruct (step_monitor read s m) as [m1|] eqn:E1; [|discriminate]. destruct (step_shape _ _ _ _ E1) as (_ & _ & _ & _ & A & B & _).
  cbn [find]. destruct (Rle_dec (snT s) T_BBN) as [HL|HL].
  - apply (run_keeps read ss m1 m' E). auto.
  - apply (IH m1 m' E). destruct (deut m1) as [v|] eqn:ED; [|reflexivity]. destruct (A v HD eq_refl). contradiction.
Qed.

(* the neutron parameters are those of the first snapshot whose last recorded
   rates are out of balance *)
Definition decoupled (read : list R -> result (list R)) (s : snapshot) : bool :=
  match rev (rows s) with
  | [] => false
  | row :: _ => match read row with Ok rates => out_of_balance (xdiv (evens rates) (odds rates)) | Raise _ => false end
  end.
Lemma run_first_ndec read ss : forall m m', monitor_run read ss m = Ok m' -> ndec m = None ->
  ndec m' = match find (decoupled read) ss with Some s => Some (snT s, snt s) | None => None end.
Proof.
  unfold monitor_run. induction ss as [|s ss IH]; intros m m' E HN; cbn [rfold] in E; [injection E as <-; auto|].
  destruct (step_monitor read s m) as [m1|] eqn:E1; [|discriminate]. destruct (step_shape _ _ _ _ E1) as (_ & _ & _ & A & _ & _ & B).
  cbn [find]. unfold decoupled at 1. destruct (rev (rows s)) as [|row rest] eqn:ER.
  - apply (IH m1 m' E). destruct (ndec m1) as [v|] eqn:EN; [|reflexivity]. exfalso.
    unfold step_monitor in E1. rewrite HN, ER in E1. cbn [rbind] in E1.
    injection E1 as E1. subst m1. cbn in EN. destruct (deut m) as [[dT dt]|] eqn:ED; cbn in EN; rewrite ?HN in EN; cbn in EN; [congruence|].
    destruct (Rle_dec _ _); cbn in EN; rewrite ?HN in EN; cbn in EN; rewrite ?HN in EN; congruence.
  - destruct (B row rest HN eq_refl) as (rates & ERd & HB). rewrite ERd. destruct (out_of_balance _).
    + apply (run_keeps read ss m1 m' E). tauto.
    + apply (IH m1 m' E). destruct (ndec m1) as [v|] eqn:EN; [|reflexivity]. exfalso. rewrite (A v HN eq_refl) in *. destruct HB as [HB _]. specialize (HB eq_refl). discriminate.
Qed.

Lemma helium_range nT decay : 0 < nT -> 0 <= decay ->
  let np := exp (- qnp / nT) * exp (- decay / neutron_lifetime) in 0 < np < 1 /\ 0 < 2 * np / (1 + np) < 1.
Proof.
  intros HT Hd np. pose proof qnp_pos. pose proof lifetime_pos.
  assert (E1 : 0 < exp (- qnp / nT) < 1).
  { split; [apply exp_pos|]. rewrite <- exp_0. apply exp_increasing. assert (0 < qnp / nT) by now apply Rdiv_lt_0_compat. replace (- qnp / nT) with (- (qnp / nT)) by (field; lra). lra. }
  assert (E2 : 0 < exp (- decay / neutron_lifetime) <= 1).
  { split; [apply exp_pos|]. rewrite <- exp_0. assert (0 <= decay / neutron_lifetime) by (apply Rmult_le_pos; [auto|now apply Rlt_le, Rinv_0_lt_compat]).
    replace (- decay / neutron_lifetime) with (- (decay / neutron_lifetime)) by (field; lra). destruct (Req_dec (decay / neutron_lifetime) 0) as [->|]; [rewrite Ropp_0; lra|]. apply Rlt_le, exp_increasing. lra. }
  assert (HN : 0 < np < 1) by (unfold np; nra). split; [exact HN|]. split.
  - apply Rdiv_lt_0_compat; lra.
  - apply Rmult_lt_reg_r with (1 + np); [lra|]. replace (2 * np / (1 + np) * (1 + np)) with (2 * np) by (field; lra). lra.
Qed.

(* the estimates come from the recorded parameters *)
Definition est_ok (m : monitor) : Prop :=
  forall d np Y, est m = Some (d, np, Y) -> exists nT nt dT dt, ndec m = Some (nT, nt) /\ deut m = Some (dT, dt) /\
    d = dt - nt /\ np = exp (- qnp / nT) * exp (- (dt - nt) / neutron_lifetime) /\ Y = 2 * np / (1 + np).

Lemma step_est read s m m' : step_monitor read s m = Ok m' -> est_ok m -> est_ok m'.
Proof.
  intros E HO. pose proof (step_shape _ _ _ _ E) as (A1 & A2 & A3 & _).
  destruct (est m) as [v|] eqn:EE.
  - intros d np Y EQ. rewrite (A3 v eq_refl) in EQ. injection EQ as ->. destruct (HO d np Y EE) as (nT & nt & dT & dt & H1 & H2 & H3). exists nT, nt, dT, dt. split; [auto|]. split; [auto|]. exact H3.
  - unfold step_monitor in E. set (m1 := match ndec m, rev (rows s) with None, row :: _ => _ | _, _ => _ end) in E.
    destruct m1 as [m1'|] eqn:E1; [|discriminate]. cbn [rbind] in E. injection E as E.
    set (m2 := match deut m1' with None => _ | Some _ => _ end) in E.
    assert (H2 : est m2 = None).
    { assert (H1 : est m1' = None).
      { unfold m1 in E1. destruct (ndec m); [injection E1 as <-; auto|]. destruct (rev (rows s)); [injection E1 as <-; auto|]. destruct (read l); [|discriminate]. cbn [rbind] in E1. injection E1 as <-. destruct (out_of_balance _); auto. }
      unfold m2. destruct (deut m1'); auto. destruct (Rle_dec _ _); auto. }
    clearbody m2. subst m'. destruct (ndec m2) as [[nT nt]|] eqn:EN; [|intros d np Y EQ; congruence]. destruct (deut m2) as [[dT dt]|] eqn:ED; [|intros d np Y EQ; congruence].
    rewrite H2. intros d np Y EQ. cbn in EQ. injection EQ as <- <- <-. exists nT, nt, dT, dt. cbn. rewrite ?EN, ?ED. repeat split.
Qed.

Lemma run_est read ss : forall m m', monitor_run read ss m = Ok m' -> est_ok m -> est_ok m'.
Proof.
  unfold monitor_run. induction ss as [|s ss IH]; intros m m' E HO; cbn [rfold] in E; [injection E as <-; auto|].
  destruct (step_monitor read s m) as [m1|] eqn:E1; [|discriminate]. eapply IH; eauto. eapply step_est; eauto.
Qed.

(* as written: the slice of the dtype raises *)
Lemma step_raises s m : ndec m = None -> rows s <> [] -> step_monitor read_rates s m = Raise TypeError.
Proof.
  intros HN HR. unfold step_monitor. rewrite HN. destruct (rev (rows s)) as [|row rest] eqn:E; [|reflexivity].
  apply (f_equal (@rev _)) in E. rewrite rev_involutive in E. contradiction.
Qed.
Lemma run_never ss : forall m m', monitor_run read_rates ss m = Ok m' -> ndec m = None -> est m = None ->
  ndec m' = None /\ est m' = None /\ Forall (fun s => rows s = []) ss.
Proof.
  unfold monitor_run. induction ss as [|s ss IH]; intros m m' E HN HE; cbn [rfold] in E; [injection E as <-; auto|].
  destruct (step_monitor read_rates s m) as [m1|] eqn:E1; [|discriminate].
  assert (HR : rows s = []) by (destruct (rows s) eqn:ER; [reflexivity|]; rewrite step_raises in E1; [discriminate|auto|congruence]).
  assert (HN1 : ndec m1 = None /\ est m1 = None).
  { unfold step_monitor in E1. rewrite HN, HR in E1. cbn [rev rbind] in E1. injection E1 as <-.
    destruct (deut m); [rewrite HN; auto|]. destruct (Rle_dec _ _); cbn; rewrite HN; auto. }
  destruct (IH m1 m' E (proj1 HN1) (proj2 HN1)) as (A & B & C). auto.
Qed.
