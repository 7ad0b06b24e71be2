(* C184: the density, the expansion rate and dT/dt passed to KAWANO. *)
From Coq Require Import Reals Lra Psatz Lia.
From Coquelicot Require Import Coquelicot.
From Verif Require Import Base EvolveModel IntegratorsModel ParamsModel ParamsProofs ThermoModel ThermoProofs AgeModel AgeProofs AgeProps RowModel.
Open Scope R_scope.

(* Any universe whose density falls with the scale factor, but not faster than
   that of radiation, at any step: the row holds the density and the rate of the
   step before, too large by at most the fourth and second power of one step *)
Theorem C184_bracket : forall logmode T km kdx kdy p0 (rho : R -> R) (s0 : R) (ent : params -> R) daTs d fr,
  params_init logmode (Val T) km kdx kdy = Ok p0 -> args_ok logmode T km kdx kdy ->
  (forall a, pa p0 <= a -> 0 < rho a) -> (forall a, pa p0 <= a -> continuous rho a) ->
  (forall a b, pa p0 <= a <= b -> rho b <= rho a) -> (forall a b, pa p0 <= a <= b -> rho a * a ^ 4 <= rho b * b ^ 4) ->
  let q := timed_run logmode (fun p => rho (pa p)) ent (evolve_begin logmode (rho (pa p0)) s0 p0) (daTs ++ [d]) in
  let row := kawano_row logmode fr q in let r := pdx p0 / px p0 in
  exists rho_row, k_rho row = Some rho_row /\ rho (pa q) <= rho_row <= (1 + r) ^ 4 * rho (pa q) /\
    hubble (rho (pa q)) <= k_H row <= (1 + r) ^ 2 * hubble (rho (pa q)).
Proof.
  intros logmode T km kdx kdy p0 rho s0 ent daTs d fr HI HA Hpos Hcont Hdec Hrad q row r.
  destruct (init_fwd _ _ _ _ _ _ HI HA) as [HG HF]. pose proof (Hpos (pa p0) ltac:(lra)) as H0.
  destruct (begin_facts logmode (rho (pa p0)) s0 p0 HG HF H0) as (G1 & F1 & E1 & E2 & E3 & E4 & E5 & E6).
  set (p1 := evolve_begin logmode (rho (pa p0)) s0 p0) in *.
  assert (HX : 0 < px p0) by (pose proof HG as (Q1 & _ & Q3 & Q4 & _); rewrite Q1; apply Rmult_lt_0_compat; lra).
  assert (Hu : 0 < r) by (pose proof HF as (Q & _); apply Rdiv_lt_0_compat; assumption).
  assert (HR : Rel r p1) by (unfold Rel, r; rewrite E4, E5; right; field; lra).
  assert (HInv : forall l, let p := timed_run logmode (fun p => rho (pa p)) ent p1 l in Good logmode p /\ Fwd logmode p /\ Rel r p /\ pa p0 <= pa p).
  { induction l as [|x l IH] using rev_ind; [change (Good logmode p1 /\ Fwd logmode p1 /\ Rel r p1 /\ pa p0 <= pa p1); split; [exact G1|]; split; [exact F1|]; split; [exact HR|]; lra|].
    unfold timed_run in *. rewrite fold_left_app. cbn [fold_left]. cbn zeta in *. destruct IH as (I1 & I2 & I3 & I4).
    destruct (step_facts logmode (fun p => rho (pa p)) ent _ x r I1 I2 I3 ltac:(lra) (Hpos _ I4)) as (J1 & J2 & J3 & J4 & J5 & _).
    split; [exact J1|]. split; [exact J2|]. split; [exact J3|]. lra. }
  destruct (HInv daTs) as (I1 & I2 & I3 & I4). unfold row. clear row. unfold q. clear q.
  replace (timed_run logmode (fun p => rho (pa p)) ent p1 (daTs ++ [d])) with (timed_step logmode (fun p => rho (pa p)) ent (timed_run logmode (fun p => rho (pa p)) ent p1 daTs) d)
    by (unfold timed_run; rewrite fold_left_app; reflexivity).
  set (p := timed_run logmode (fun p => rho (pa p)) ent p1 daTs) in *.
  destruct (step_facts logmode (fun p => rho (pa p)) ent p d r I1 I2 I3 ltac:(lra) (Hpos _ I4)) as (_ & _ & _ & J4 & J5 & J6 & _).
  set (q := timed_step logmode (fun p => rho (pa p)) ent p d) in *.
  exists (rho (pa p)). split; [reflexivity|].
  assert (B1 : rho (pa q) <= rho (pa p)) by (apply Hdec; lra).
  assert (HQ : 0 < rho (pa q)) by (apply Hpos; lra).
  assert (B2 : rho (pa p) <= (1 + r) ^ 4 * rho (pa q)).
  { apply (Rmult_le_reg_r (pa p ^ 4)); [apply pow_lt; lra|]. eapply Rle_trans; [apply (Hrad (pa p) (pa q)); lra|].
    assert (pa q ^ 4 <= ((1 + r) * pa p) ^ 4) by (apply pow_incr; lra). rewrite Rpow_mult_distr in H.
    replace ((1 + r) ^ 4 * rho (pa q) * pa p ^ 4) with (rho (pa q) * ((1 + r) ^ 4 * pa p ^ 4)) by ring. apply Rmult_le_compat_l; lra. }
  split; [split; assumption|]. rewrite !hubble_Hub. change (k_H (kawano_row logmode fr q)) with (Hub (rho (pa p))). split.
  - apply Hub_mono; lra.
  - rewrite <- Hub_scale by lra. apply Hub_mono; [left; apply Hpos; lra|]. lra.
Qed.
Print Assumptions C184_bracket.

(* Radiation with logarithmic steps: H is (1+dy)^2 and the density (1+dy)^4
   times the value at the temperature of the row, and T falls (1+dy)^2 times
   faster than the - T H of such a universe *)
Theorem C184_radiation : forall ps T km kdx dy p0 n,
  ps <> [] -> Forall (fun s => 0 < dof s) ps ->
  params_init true (Val T) km kdx (Val dy) = Ok p0 -> args_ok true T km kdx (Val dy) ->
  exists q hist, radiation_run true ps (S n) (radiation_begin true ps p0, [0]) = Ok (q, hist) /\
    let row := kawano_row true (last hist 1) q in
    k_T row = T / (1 + dy) ^ S n /\
    k_rho row = Some ((1 + dy) ^ 4 * plasma_density ps (k_T row)) /\
    k_H row = (1 + dy) ^ 2 * hubble (plasma_density ps (k_T row)) /\
    k_dTdt row = (1 + dy) ^ 2 * (- (k_T row * hubble (plasma_density ps (k_T row)))).
Proof.
  intros ps T km kdx dy p0 n HN HD HI HA. destruct (init_fwd _ _ _ _ _ _ HI HA) as [HG HF]. assert (HO : rad_ok ps) by (split; assumption).
  destruct HA as (HT & Hm & Hs). destruct (init_good true T km kdx (Val dy) p0 HI HT Hm) as (_ & ET & _ & Ea & EaT & _ & _ & _ & HL & _).
  assert (Hdy : 0 < dy) by (apply Hs; reflexivity).
  assert (Ha : 0 < paT p0) by (destruct HG as (_ & _ & Q & _); lra).
  assert (HTT : paT p0 / pa p0 = T). { rewrite EaT, <- Ea. pose proof HG as (_ & _ & _ & Q & _). field. lra. }
  pose proof (rho_rad_pos ps T HO HT) as HR.
  unfold radiation_begin. rewrite HTT, ET. fold (rho_rad ps T).
  destruct (begin_facts true (rho_rad ps T) (total (fun s => rad_entropy s T T) ps) p0 HG HF HR) as (G1 & F1 & E1 & E2 & E3 & E4 & E5 & E6).
  set (p1 := evolve_begin true (rho_rad ps T) (total (fun s => rad_entropy s T T) ps) p0) in *.
  assert (EU : pdx p1 / px p1 = dy).
  { rewrite E4, E5. destruct (HL eq_refl) as (dy' & Q & Q'). injection Q as <-. pose proof HG as (K1 & _ & K3 & K4 & K5). destruct (K5 eq_refl) as (d & D1 & D2 & _).
    rewrite Q' in D1. injection D1 as <-. rewrite D2. field. rewrite K1. apply Rgt_not_eq, Rmult_lt_0_compat; lra. }
  assert (ET1 : pT p1 = T). { pose proof G1 as (_ & Q & _ & Q4 & _). rewrite <- HTT, <- E1, <- E2, <- Q. field. lra. }
  assert (HP : forall k, 0 < (1 + dy) ^ k) by (intros k; apply pow_lt; lra).
  assert (HRun : forall k, exists p hist, radiation_run true ps k (p1, [0]) = Ok (p, hist) /\ Forall (fun x => x = 0) hist /\ Good true p /\ Fwd true p /\ paT p = paT p1 /\ pdx p / px p = dy /\ pT p = T / (1 + dy) ^ k).
  { induction k as [|k (p & hist & I1 & I2 & I3 & I4 & I5 & I6 & I7)].
    - exists p1, [0]. split; [reflexivity|]. split; [auto|]. split; [exact G1|]. split; [exact F1|]. split; [reflexivity|]. split; [exact EU|]. rewrite ET1. change ((1 + dy) ^ 0) with 1. field.
    - destruct (radiation_step_age true ps p hist HO I3 I4 ltac:(lra) I2) as (q & J1 & J2 & J3 & J4 & J5 & J6 & _ & _ & J7 & _ & J8 & _).
      exists q, (hist ++ [0]). cbn [radiation_run]. rewrite I1. split; [exact J1|]. split; [apply Forall_app; split; auto|]. split; [exact J2|]. split; [exact J3|]. split; [lra|].
      split; [rewrite (J8 eq_refl); exact I6|]. rewrite J7, J6, I6, I7. pose proof I3 as (_ & _ & _ & K & _). cbn [pow]. specialize (HP k). field. repeat split; lra. }
  destruct (HRun n) as (p & hist & I1 & I2 & I3 & I4 & I5 & I6 & I7).
  destruct (radiation_step_age true ps p hist HO I3 I4 ltac:(lra) I2) as (q & J1 & J2 & J3 & J4 & J5 & J6 & _ & JR & J7 & _ & J8 & _).
  exists q, (hist ++ [0]). cbn [radiation_run]. rewrite I1. split; [exact J1|]. cbn zeta. rewrite last_last.
  assert (HTp : 0 < pT p) by (rewrite I7; apply Rdiv_lt_0_compat; [exact HT | apply HP]).
  assert (EQ : pT p = pT q * (1 + dy)). { rewrite J7, J6, I6. pose proof I3 as (_ & _ & _ & K & _). field. split; lra. }
  assert (HTq : 0 < pT q) by nra.
  assert (EH : pH q = Hub (rho_rad ps (pT p))).
  { pose proof (radiation_step_ok true ps p hist HO I3 I4 ltac:(lra) I2) as Q. rewrite Q in J1. injection J1 as <-. cbn. unfold Hub, rho_rad.
    pose proof I3 as (_ & K2 & _ & K4 & _). replace (paT p / pa p) with (pT p) by (rewrite <- K2; field; lra). reflexivity. }
  assert (EH' : pH q = (1 + dy) ^ 2 * Hub (rho_rad ps (pT q))).
  { rewrite EH, EQ, rho_rad_scale. apply Hub_scale; [left; apply rho_rad_pos; assumption | lra]. }
  cbn [kawano_row k_T k_rho k_H k_dTdt]. rewrite !hubble_Hub, !plasma_rho. split; [|split; [|split]].
  - cbn [pow]. specialize (HP n). assert (E : pT q = pT p / (1 + dy)) by (rewrite EQ; field; lra). rewrite E, I7. field. split; lra.
  - rewrite JR, EQ, rho_rad_scale. f_equal. ring.
  - exact EH'.
  - unfold dTdt. rewrite EH'. pose proof J2 as (_ & K2 & _ & K4 & _). rewrite <- K2. field. lra.
Qed.
Print Assumptions C184_radiation.

(* so a row does not describe the universe at the temperature of the row *)
Theorem C184_consistent_refuted : exists p0 q hist, params_init true (Val 1) (Val 1) Absent (Val (5 / 100)) = Ok p0 /\
  radiation_run true [mkTpart 2 0 false] 1 (radiation_begin true [mkTpart 2 0 false] p0, [0]) = Ok (q, hist) /\
  let row := kawano_row true (last hist 1) q in
  k_H row = 11025 / 10000 * hubble (plasma_density [mkTpart 2 0 false] (k_T row)) /\ 0 < hubble (plasma_density [mkTpart 2 0 false] (k_T row)).
Proof.
  assert (EI : exists p0, params_init true (Val 1) (Val 1) Absent (Val (5 / 100)) = Ok p0).
  { unfold params_init. destruct (Req_EM_T 1 0); [lra|]. cbn zeta. destruct (Req_EM_T (5 / 100) 0); [lra|]. eexists. reflexivity. }
  destruct EI as [p0 EI]. exists p0. destruct (C184_radiation [mkTpart 2 0 false] 1 (Val 1) Absent (5 / 100) p0 0) as (q & hist & E & ET & _ & EH & _).
  - discriminate.
  - constructor; [cbn; lra | constructor].
  - exact EI.
  - unfold args_ok, step_kw. repeat split; try lra; intros ? Q; injection Q as <-; lra.
  - exists q, hist. split; [exact EI|]. split; [exact E|]. cbn zeta in *. split; [rewrite EH; cbn [pow]; field|].
    rewrite ET, hubble_Hub, plasma_rho. apply Hub_pos, rho_rad_pos; [split; [discriminate | constructor; [cbn; lra | constructor]]|]. cbn [pow]. lra.
Qed.
Print Assumptions C184_consistent_refuted.

(* the other columns, in either mode: the slow clock of C183, x at the
   temperature of the row, and a temperature falling at the (too large) H *)
Theorem C184_columns : forall logmode ps T km kdx kdy p0 n,
  ps <> [] -> Forall (fun s => 0 < dof s) ps ->
  params_init logmode (Val T) km kdx kdy = Ok p0 -> args_ok logmode T km kdx kdy ->
  exists q hist, radiation_run logmode ps (S n) (radiation_begin logmode ps p0, [0]) = Ok (q, hist) /\
    let row := kawano_row logmode (last hist 1) q in let u := pdx p0 / px p0 in
    let t0 := plasma_age ps T in let t := plasma_age ps (k_T row) in
    t0 + 2 / ((1 + u) * (2 + u)) * (t - t0) <= k_t row < t /\
    k_x row * k_T row = pm p0 ^ 2 /\ k_dTdt row = - (k_T row * k_H row) /\ hubble (plasma_density ps (k_T row)) < k_H row.
Proof.
  intros logmode ps T km kdx kdy p0 n HN HD HI HA.
  destruct (C183_radiation logmode ps T km kdx kdy p0 (S n) HN HD HI HA) as (q & hist & E & (B1 & B2) & B3).
  destruct (C183_recorded_density logmode ps T km kdx kdy p0 n HN HD HI HA) as (p & hist' & q' & _ & E' & RT & _ & RH & RD).
  rewrite E in E'. injection E' as <- ->. exists q, (hist' ++ [0]). split; [exact E|]. cbn zeta. rewrite last_last.
  destruct (init_fwd _ _ _ _ _ _ HI HA) as [HG HF]. assert (HO : rad_ok ps) by (split; assumption).
  destruct HA as (HT & Hm & Hs). destruct (init_good logmode T km kdx kdy p0 HI HT Hm) as (_ & ET & _ & Ea & EaT & _).
  assert (Ha : 0 < paT p0) by (destruct HG as (_ & _ & Q & _); lra).
  assert (HTT : paT p0 / pa p0 = T). { rewrite EaT, <- Ea. pose proof HG as (_ & _ & _ & Q & _). field. lra. }
  pose proof (rho_rad_pos ps T HO HT) as HR.
  unfold radiation_begin in E. rewrite HTT, ET in E. fold (rho_rad ps T) in E.
  destruct (begin_facts logmode (rho_rad ps T) (total (fun s => rad_entropy s T T) ps) p0 HG HF HR) as (G1 & F1 & E1 & E2 & E3 & E4 & E5 & E6).
  set (p1 := evolve_begin logmode (rho_rad ps T) (total (fun s => rad_entropy s T T) ps) p0) in *.
  destruct (radiation_run_inv logmode ps (S n) p1 [0] HO G1 F1 ltac:(lra) ltac:(auto)) as (q' & h' & E' & Gq & _ & Aq & Mq & _).
  rewrite E in E'. injection E' as <- _. pose proof Gq as (K1 & K2 & K3 & K4 & _).
  cbn [kawano_row k_T k_rho k_H k_dTdt k_t k_x].
  assert (HTq : 0 < pT q). { apply (Rmult_lt_reg_l (pa q)); [exact K4|]. rewrite Rmult_0_r, K2. lra. }
  split; [split; [exact B1 | apply B3; lia]|]. split; [|split].
  - rewrite K1. replace (pa q * pm q * pT q) with (pa q * pT q * pm q) by ring. rewrite K2, Aq, Mq, E2, E3, EaT. ring.
  - unfold dTdt. rewrite <- K2. destruct logmode; field; lra.
  - rewrite RH, !hubble_Hub. unfold Hub. apply Rmult_lt_compat_r; [apply Rinv_0_lt_compat, Mp_pos|]. rewrite !plasma_rho in *. pose proof (rho_rad_pos ps (pT q) HO HTq). pose proof PI_RGT_0.
    apply sqrt_lt_1; [nra | nra|]. apply Rmult_lt_compat_l; lra.
Qed.
Print Assumptions C184_columns.
