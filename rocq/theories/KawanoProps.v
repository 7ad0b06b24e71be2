(* C86, C87, C95: weak rates and the freeze-out monitor. *)
From Coq Require Import Reals Lra Psatz.
From Verif Require Import Base IntegratorsModel IntegratorsProofs ParamsModel ParamsProofs EvolveModel KawanoModel KawanoProofs.
Open Scope R_scope.

(* ---------- C86 ---------- *)
(* The temperature is T = aT / a, q the neutron-proton mass difference.
   Occupations are written out; `thermal` is not used in the statement. *)
Theorem C86_detailed_balance : forall k a aT y, 0 < a -> 0 < aT ->
  (forall p, fe k p = / (exp (sqrt (p ^ 2 + (m_e * a) ^ 2) / aT) + 1)) -> (forall p, fnu k p = / (exp (p / aT) + 1)) ->
  rate1 k a y = exp (qnp / (aT / a)) * rate2 k a y /\
  rate3 k a y = exp (qnp / (aT / a)) * rate4 k a y /\
  rate5 k a y = exp (qnp / (aT / a)) * rate6 k a y.
Proof. intros. apply rates_balance; auto. split; intros p; rewrite ?H1, ?H2; unfold Rdiv; now rewrite Rmult_1_l. Qed.
Print Assumptions C86_detailed_balance.

(* and of the six integrated rates, with any quadrature rule *)
Theorem C86_detailed_balance_totals : forall q k a aT l, 0 < a -> 0 < aT ->
  (forall p, fe k p = / (exp (sqrt (p ^ 2 + (m_e * a) ^ 2) / aT) + 1)) -> (forall p, fnu k p = / (exp (p / aT) + 1)) ->
  baryonic_rates q (Some k) a = Ok l -> forall i, (i < 3)%nat ->
  nth (2 * i) l 0 = exp (qnp / (aT / a)) * nth (2 * i + 1) l 0.
Proof.
  intros q k a aT l Ha HT He Hn E i Hi. injection E as <-.
  assert (A := fun y => C86_detailed_balance k a aT y Ha HT He Hn).
  destruct i as [|[|[|i]]]; [| | |lia]; cbn [nth Nat.mul Nat.add]; apply channel_scal; intros y; apply A.
Qed.
Print Assumptions C86_detailed_balance_totals.
(* the neutron decay rate is positive for some momentum, so that the equations
   are not 0 = 0 *)
Example C86_case : let k := mkKparts (fun p => / (exp (sqrt (p ^ 2 + (m_e * 1) ^ 2) / MeV) + 1)) (fun p => / (exp (p / MeV) + 1)) 0 (20 * MeV) 1 in
  0 < rate4 k 1 (MeV / 2).
Proof.
  cbn zeta. unfold rate4, rate_shape. pose proof MeV_pos as HM. unfold m_e, qnp at 1.
  destruct (Rlt_dec _ _) as [H|H]; [exfalso; lra|].
  assert (P : forall x, 0 < / (exp x + 1)) by (intros x; apply Rinv_0_lt_compat; pose proof (exp_pos x); lra).
  cbn [fe fnu]. apply Rmult_lt_0_compat; [apply Rmult_lt_0_compat; [apply Rmult_lt_0_compat; [apply pow_lt; lra|]|]|apply Rmult_lt_0_compat; apply P].
  - apply sqrt_lt_R0. assert (0 < (qnp * 1 - MeV / 2) - 511 / 1000 * MeV * 1) by (unfold qnp; lra).
    assert (0 < (qnp * 1 - MeV / 2) + 511 / 1000 * MeV * 1) by (unfold qnp; lra). nra.
  - unfold qnp. lra.
Qed.

(* ---------- C87 ---------- *)
Theorem C87_rates_well_defined : forall q k a, Forall (fun nw => 0 <= snd nw) q -> 0 < a -> 0 < kpa k ->
  (forall y, 0 <= fe k y <= 1) -> (forall y, 0 <= fnu k y <= 1) ->
  exists l, baryonic_rates q (Some k) a = Ok l /\ length l = 6%nat /\ Forall (fun r => 0 <= r) l.
Proof.
  intros q k a HQ Ha Hk H1 H2. eexists. split; [reflexivity|]. apply (rates_nonneg q k a); auto. split; [exact H1|]. split; [exact H2|exact Hk].
Qed.
Print Assumptions C87_rates_well_defined.
(* a channel with an empty window contributes exactly zero: neutrino capture
   channels (1, 2) run over the grid, neutron decay (3, 4) up to (q - m_e) a,
   the positron channels (5, 6) from (q + m_e) a *)
Theorem C87_empty_window : forall q k a l, baryonic_rates q (Some k) a = Ok l ->
  (ymax k <= ymin k -> nth 0 l 1 = 0 /\ nth 1 l 1 = 0) /\
  ((qnp - m_e) * a <= ymin k -> nth 2 l 1 = 0 /\ nth 3 l 1 = 0) /\
  (ymax k <= (qnp + m_e) * a -> nth 4 l 1 = 0 /\ nth 5 l 1 = 0).
Proof.
  intros q k a l E. injection E as <-. cbn [nth]. unfold channel.
  repeat match goal with |- _ /\ _ => split | |- _ -> _ => intros ? end; match goal with |- context [Rlt_dec ?u ?v] => destruct (Rlt_dec u v); [lra|reflexivity] end.
Qed.
Print Assumptions C87_empty_window.
(* integration beyond the threshold of a channel adds nothing *)
Theorem C87_below_threshold : forall k a y, 0 < a -> (qnp - m_e) * a < y -> rate3 k a y = 0 /\ rate4 k a y = 0.
Proof. intros k a y Ha Hy. unfold rate3, rate4, rate_shape. destruct (Rlt_dec _ _); [auto|lra]. Qed.
Print Assumptions C87_below_threshold.
Theorem C87_above_threshold : forall k a y, 0 < a -> y < (qnp + m_e) * a -> rate5 k a y = 0 /\ rate6 k a y = 0.
Proof. intros k a y Ha Hy. unfold rate5, rate6, rate_shape. destruct (Rlt_dec _ _); [auto|lra]. Qed.
Print Assumptions C87_above_threshold.
Theorem C87_uninitialised : forall q a, baryonic_rates q None a = Raise AttributeError.
Proof. reflexivity. Qed.
Print Assumptions C87_uninitialised.
Example C87_case : let k := mkKparts (fun _ => 1 / 2) (fun _ => 1 / 2) 0 (20 * MeV) 1 in
  (forall y, 0 <= fe k y <= 1) /\ (forall y, 0 <= fnu k y <= 1) /\ 0 < kpa k /\
  nth 0 (match baryonic_rates [(0, 2)] (Some k) 1 with Ok l => l | _ => [] end) 0 > 0.
Proof.
  cbn zeta. cbn [fe fnu kpa baryonic_rates nth ymin ymax]. split; [intros; lra|]. split; [intros; lra|]. split; [lra|].
  pose proof MeV_pos. unfold channel. destruct (Rlt_dec _ _); [|lra]. apply Rmult_lt_0_compat.
  - cbn [kpa]. apply Rdiv_lt_0_compat; [apply norm_pos|]. apply pow_lt. lra.
  - rewrite gaussian_eq. rewrite rule_sum_cons. unfold rule_sum. cbn [fold_right map]. unfold rate1, rate_shape. cbn [fe fnu].
    set (y := (20 * MeV - 0) / 2 * 0 + (20 * MeV + 0) / 2). assert (EY : y = 10 * MeV) by (unfold y; lra). rewrite EY.
    pose proof qnp_pos. assert (HQ : qnp < 2 * MeV) by (unfold qnp; lra). assert (HMe : m_e = 511 / 1000 * MeV) by reflexivity.
    destruct (Rlt_dec _ _) as [HL|HL]; [exfalso; lra|].
    assert (0 < sqrt ((qnp * 1 + 10 * MeV) ^ 2 - (m_e * 1) ^ 2)).
    { apply sqrt_lt_R0. rewrite HMe. nra. }
    assert (0 < (10 * MeV) ^ 2) by (apply pow_lt; lra).
    apply Rmult_lt_0_compat; [lra|]. rewrite Rplus_0_r. apply Rmult_lt_0_compat; [|lra]. apply Rmult_lt_0_compat; [|lra]. apply Rmult_lt_0_compat; [|lra]. apply Rmult_lt_0_compat; lra.
Qed.

(* ---------- C95 ---------- *)
(* The code as written never gets past its first look at the recorded rates *)
Theorem C95_monitor_refuted : forall s m, ndec m = None -> rows s <> [] -> step_monitor read_rates s m = Raise TypeError.
Proof. exact step_raises. Qed.
Print Assumptions C95_monitor_refuted.
Theorem C95_never_estimates_refuted : forall ss m', monitor_run read_rates ss (mkMon None None None) = Ok m' -> ndec m' = None /\ est m' = None.
Proof. intros ss m' E. destruct (run_never ss _ m' E eq_refl eq_refl) as (A & B & _). auto. Qed.
Print Assumptions C95_never_estimates_refuted.

(* With the six rate columns read as intended the monitor does what is claimed:
   the first snapshot satisfying the condition is recorded and nothing later
   changes it. `freeze` is the balance condition on the last row. *)
Definition freeze (s : snapshot) : bool :=
  match rev (rows s) with
  | row :: _ => let r := skipn (length row - 6) row in
      match xdiv (evens r) (odds r) with
      | Fin x => (if Rlt_dec 10 x then true else false) || (if Rlt_dec x (1 / 10) then true else false)
      | PInf | NInf => true
      | NaN => false
      end
  | [] => false
  end.
Definition below_BBN (s : snapshot) : bool := if Rle_dec (snT s) T_BBN then true else false.
Theorem C95_monitor_intended : forall ss m', monitor_run read_intended ss (mkMon None None None) = Ok m' ->
  ndec m' = match find freeze ss with Some s => Some (snT s, snt s) | None => None end /\
  deut m' = match find below_BBN ss with Some s => Some (snT s, snt s) | None => None end /\
  (forall nT nt dT dt d np Y, ndec m' = Some (nT, nt) -> deut m' = Some (dT, dt) -> est m' = Some (d, np, Y) ->
     0 < nT -> nt <= dt -> d = dt - nt /\ 0 < np < 1 /\ 0 < Y < 1).
Proof.
  intros ss m' E. split; [|split].
  - rewrite (run_first_ndec _ _ _ _ E eq_refl). reflexivity.
  - apply (run_first_deut _ _ _ _ E eq_refl).
  - intros nT nt dT dt d np Y H1 H2 H3 HT Ht.
    assert (HO : est_ok m') by (apply (run_est _ _ _ _ E); intros ? ? ? X; discriminate X).
    destruct (HO _ _ _ H3) as (nT' & nt' & dT' & dt' & A1 & A2 & -> & -> & ->). rewrite H1 in A1. rewrite H2 in A2. injection A1 as <- <-. injection A2 as <- <-.
    split; [reflexivity|]. apply helium_range; [auto|lra].
Qed.
Print Assumptions C95_monitor_intended.
(* the estimate appears as soon as both are known, and never fails *)
Theorem C95_intended_total : forall s m, exists m', step_monitor read_intended s m = Ok m' /\
  (ndec m' <> None -> deut m' <> None -> est m' <> None).
Proof.
  intros s m. unfold step_monitor, read_intended. cbn [rbind].
  set (m1 := match ndec m, rev (rows s) with None, row :: _ => _ | _, _ => _ end). assert (H : exists v, m1 = Ok v).
  { unfold m1. destruct (ndec m), (rev (rows s)); eexists; reflexivity. }
  destruct H as [v ->]. cbn [rbind]. eexists. split; [reflexivity|].
  set (m2 := match deut v with None => _ | Some _ => _ end). destruct (ndec m2) as [[]|] eqn:E1; [|congruence]. destruct (deut m2) as [[]|] eqn:E2; [|congruence].
  destruct (est m2) eqn:E3; cbn; congruence.
Qed.
Print Assumptions C95_intended_total.
(* later calls never change what an earlier call recorded *)
Theorem C95_recorded_once : forall read ss m m', monitor_run read ss m = Ok m' ->
  (forall v, ndec m = Some v -> ndec m' = Some v) /\ (forall v, deut m = Some v -> deut m' = Some v) /\ (forall v, est m = Some v -> est m' = Some v).
Proof. exact run_keeps. Qed.
Print Assumptions C95_recorded_once.
Example C95_case :
  let s1 := mkSnap (2 * MeV) 1 [[0; 100; 1; 0; 0; 0; 0]] in
  let s2 := mkSnap (1 / 100 * MeV) 5 [[0; 100; 1; 0; 0; 0; 0]; [0; 1; 1; 1; 1; 1; 1]] in
  exists m', monitor_run read_intended [s1; s2] (mkMon None None None) = Ok m' /\ ndec m' = Some (2 * MeV, 1) /\ deut m' = Some (1 / 100 * MeV, 5) /\ est m' <> None.
Proof.
  cbn zeta. pose proof MeV_pos. unfold monitor_run. cbn [rfold].
  unfold step_monitor at 1, read_intended. cbn [ndec deut est rows rev app rbind length Nat.sub skipn snT snt].
  unfold xdiv. cbn [evens odds]. destruct (Req_EM_T _ 0) as [E|E]; [exfalso; lra|]. unfold out_of_balance.
  destruct (Rlt_dec 10 _) as [H1|H1]; [|exfalso; apply H1; lra]. cbn [orb ndec deut est].
  unfold T_BBN. destruct (Rle_dec (2 * MeV) _); [exfalso; lra|]. cbn [ndec deut est].
  unfold step_monitor. cbn [ndec deut est rows rev app rbind snT snt]. unfold T_BBN. destruct (Rle_dec (1 / 100 * MeV) _); [|exfalso; lra]. cbn [ndec deut est].
  eexists. split; [reflexivity|]. cbn. repeat split; discriminate.
Qed.
