(* C183: the age of the universe along a run. *)
From Coq Require Import Reals Lra Psatz Lia.
From Coquelicot Require Import Coquelicot.
From Verif Require Import Base IntegratorsModel ParamsModel ParamsProofs ThermoModel ThermoProofs AgeModel AgeProofs.
Open Scope R_scope.

(* Friedmann equation; the time between the scale factors a and b is the
   integral of da / (a H) *)
Definition hubble (rho : R) : R := sqrt (8 * PI * G * rho / 3).
Definition elapsed (rho : R -> R) (a b : R) : R := RInt (fun a => 1 / (a * hubble (rho a))) a b.
(* density and age 1/(2H) of massless species in equilibrium *)
Definition plasma_density (ps : list tpart) (T : R) : R :=
  fold_right (fun s acc => (if fermion s then 7 / 8 else 1) * (dof s * PI ^ 2 / 30 * T ^ 4) + acc) 0 ps.
Definition plasma_age (ps : list tpart) (T : R) : R := 1 / (2 * hubble (plasma_density ps T)).

Lemma hubble_Hub : forall rho, hubble rho = Hub rho.
Proof.
  intros rho. unfold hubble, Hub, G. pose proof Mp_pos as HM. replace (8 * PI * (1 / M_p ^ 2) * rho / 3) with (8 / 3 * PI * rho * ((/ M_p) * (/ M_p))) by (field; lra).
  assert (0 < / M_p) by (apply Rinv_0_lt_compat; exact HM). destruct (Rle_or_lt 0 (8 / 3 * PI * rho)) as [H0|H0].
  - rewrite sqrt_mult by nra. rewrite sqrt_square by lra. reflexivity.
  - rewrite !sqrt_neg_0; [unfold Rdiv; ring | lra | nra].
Qed.
Lemma plasma_rho : forall ps T, plasma_density ps T = rho_rad ps T.
Proof. intros ps T. unfold plasma_density, rho_rad, total. induction ps as [|s ps IH]; [reflexivity|]. cbn [fold_right]. rewrite IH, rad_rho_eq. reflexivity. Qed.
Lemma plasma_age_age : forall ps T, plasma_age ps T = age ps T.
Proof. intros. unfold plasma_age, age. rewrite hubble_Hub, plasma_rho. reflexivity. Qed.

(* Any universe whose density falls with the scale factor, but not faster than
   that of radiation: the recorded time never runs ahead of the true one, and
   lags behind by at most the cube of one relative step. *)
Theorem C183_bracket : forall logmode T km kdx kdy p0 (rho : R -> R) (s0 : R) (ent : params -> R) daTs,
  params_init logmode (Val T) km kdx kdy = Ok p0 -> args_ok logmode T km kdx kdy ->
  (forall a, pa p0 <= a -> 0 < rho a) -> (forall a, pa p0 <= a -> continuous rho a) ->
  (forall a b, pa p0 <= a <= b -> rho b <= rho a) -> (forall a b, pa p0 <= a <= b -> rho a * a ^ 4 <= rho b * b ^ 4) ->
  let p1 := evolve_begin logmode (rho (pa p0)) s0 p0 in
  let q := timed_run logmode (fun p => rho (pa p)) ent p1 daTs in
  pt p1 = 1 / (2 * hubble (rho (pa p0))) /\ pa p1 = pa p0 /\ pa p0 <= pa q /\
  pt q - pt p1 <= elapsed rho (pa p0) (pa q) <= (1 + pdx p0 / px p0) ^ 3 * (pt q - pt p1).
Proof.
  intros logmode T km kdx kdy p0 rho s0 ent daTs HI HA Hpos Hcont Hdec Hrad p1 q.
  destruct (init_fwd _ _ _ _ _ _ HI HA) as [HG HF]. pose proof (Hpos (pa p0) ltac:(lra)) as H0.
  destruct (begin_facts logmode (rho (pa p0)) s0 p0 HG HF H0) as (G1 & F1 & E1 & E2 & E3 & E4 & E5 & E6).
  fold p1 in G1, F1, E1, E2, E3, E4, E5, E6.
  assert (HX : 0 < px p0) by (pose proof HG as (Q1 & _ & Q3 & Q4 & _); rewrite Q1; apply Rmult_lt_0_compat; lra).
  assert (Hu : 0 < pdx p0 / px p0) by (pose proof HF as (Q & _); apply Rdiv_lt_0_compat; assumption).
  assert (HR : Rel (pdx p0 / px p0) p1) by (unfold Rel; rewrite E4, E5; right; field; lra).
  pose proof (timed_bounds logmode (fun p => rho (pa p)) ent rho (pdx p0 / px p0) daTs p1 G1 F1 HR ltac:(lra) (fun _ _ => eq_refl)) as B.
  rewrite E1 in B. specialize (B Hpos Hcont Hdec Hrad). cbn zeta in B. fold q in B. destruct B as (B1 & B2).
  split; [rewrite E6, hubble_Hub; apply init_time_half_hubble; exact H0|]. split; [exact E1|]. split; [exact B1|].
  replace (elapsed rho (pa p0) (pa q)) with (RInt (timeslope rho) (pa p0) (pa q)); [exact B2|].
  unfold elapsed. apply (RInt_ext (timeslope rho) (fun a => 1 / (a * hubble (rho a)))). intros x _. unfold timeslope. rewrite hubble_Hub. unfold Rdiv. rewrite Rmult_1_l. reflexivity.
Qed.
Print Assumptions C183_bracket.

(* Radiation, where the true age is 1/(2H): in either mode the clock is slow *)
Theorem C183_radiation : forall logmode ps T km kdx kdy p0 n,
  ps <> [] -> Forall (fun s => 0 < dof s) ps ->
  params_init logmode (Val T) km kdx kdy = Ok p0 -> args_ok logmode T km kdx kdy ->
  exists q hist, radiation_run logmode ps n (radiation_begin logmode ps p0, [0]) = Ok (q, hist) /\
    let u := pdx p0 / px p0 in let t0 := plasma_age ps T in let t := plasma_age ps (pT q) in
    t0 + 2 / ((1 + u) * (2 + u)) * (t - t0) <= pt q <= t /\ ((0 < n)%nat -> pt q < t).
Proof.
  intros logmode ps T km kdx kdy p0 n HN HD HI HA. destruct (init_fwd _ _ _ _ _ _ HI HA) as [HG HF]. assert (HO : rad_ok ps) by (split; assumption).
  destruct HA as (HT & Hm & Hs). destruct (init_good logmode T km kdx kdy p0 HI HT Hm) as (_ & ET & _ & Ea & EaT & _).
  assert (Ha : 0 < paT p0) by (destruct HG as (_ & _ & Q & _); lra).
  assert (HTT : paT p0 / pa p0 = T). { rewrite EaT, <- Ea. pose proof HG as (_ & _ & _ & Q & _). field. lra. }
  pose proof (rho_rad_pos ps T HO HT) as HR.
  unfold radiation_begin. rewrite HTT, ET. fold (rho_rad ps T).
  destruct (begin_facts logmode (rho_rad ps T) (total (fun s => rad_entropy s T T) ps) p0 HG HF HR) as (G1 & F1 & E1 & E2 & E3 & E4 & E5 & E6).
  set (p1 := evolve_begin logmode (rho_rad ps T) (total (fun s => rad_entropy s T T) ps) p0) in *.
  destruct (radiation_age logmode ps p1 n HO G1 F1 ltac:(lra)) as (q & hist & E & _ & _ & _ & _ & _ & _ & _ & B & BS & _).
  exists q, hist. split; [exact E|]. cbn zeta.
  assert (ET1 : pT p1 = T). { pose proof G1 as (_ & Q & _ & Q4 & _). rewrite <- HTT, <- E1, <- E2, <- Q. field. lra. }
  assert (E0 : pt p1 = age ps T) by (rewrite E6; apply init_time_half_hubble; exact HR).
  rewrite E4, E5, ET1, E0 in *. rewrite !plasma_age_age. split; [lra|]. intros Hn. specialize (BS Hn). lra.
Qed.
Print Assumptions C183_radiation.

(* with logarithmic steps the deficit is exact *)
Theorem C183_radiation_log : forall ps T km kdx dy p0 n,
  ps <> [] -> Forall (fun s => 0 < dof s) ps ->
  params_init true (Val T) km kdx (Val dy) = Ok p0 -> args_ok true T km kdx (Val dy) ->
  exists q hist, radiation_run true ps n (radiation_begin true ps p0, [0]) = Ok (q, hist) /\
    pt q = plasma_age ps T + 2 / ((1 + dy) * (2 + dy)) * (plasma_age ps (pT q) - plasma_age ps T).
Proof.
  intros ps T km kdx dy p0 n HN HD HI HA. destruct (init_fwd _ _ _ _ _ _ HI HA) as [HG HF]. assert (HO : rad_ok ps) by (split; assumption).
  destruct HA as (HT & Hm & Hs). destruct (init_good true T km kdx (Val dy) p0 HI HT Hm) as (_ & ET & _ & Ea & EaT & _ & _ & _ & HL & _).
  assert (Ha : 0 < paT p0) by (destruct HG as (_ & _ & Q & _); lra).
  assert (HTT : paT p0 / pa p0 = T). { rewrite EaT, <- Ea. pose proof HG as (_ & _ & _ & Q & _). field. lra. }
  pose proof (rho_rad_pos ps T HO HT) as HR.
  unfold radiation_begin. rewrite HTT, ET. fold (rho_rad ps T).
  destruct (begin_facts true (rho_rad ps T) (total (fun s => rad_entropy s T T) ps) p0 HG HF HR) as (G1 & F1 & E1 & E2 & E3 & E4 & E5 & E6).
  set (p1 := evolve_begin true (rho_rad ps T) (total (fun s => rad_entropy s T T) ps) p0) in *.
  destruct (radiation_age true ps p1 n HO G1 F1 ltac:(lra)) as (q & hist & E & _ & _ & _ & _ & _ & _ & _ & _ & _ & BL).
  exists q, hist. split; [exact E|].
  assert (ET1 : pT p1 = T). { pose proof G1 as (_ & Q & _ & Q4 & _). rewrite <- HTT, <- E1, <- E2, <- Q. field. lra. }
  assert (E0 : pt p1 = age ps T) by (rewrite E6; apply init_time_half_hubble; exact HR).
  assert (EU : pdx p0 / px p0 = dy).
  { destruct (HL eq_refl) as (dy' & Q & Q'). injection Q as <-. pose proof HG as (K1 & _ & K3 & K4 & K5). destruct (K5 eq_refl) as (d & D1 & D2 & _).
    rewrite Q' in D1. injection D1 as <-. rewrite D2. field. rewrite K1. apply Rgt_not_eq, Rmult_lt_0_compat; lra. }
  specialize (BL eq_refl). rewrite E4, E5, EU, ET1, E0 in BL. rewrite !plasma_age_age. lra.
Qed.
Print Assumptions C183_radiation_log.

(* the density in a recorded row belongs to the temperature of the row before *)
Theorem C183_recorded_density : forall logmode ps T km kdx kdy p0 n,
  ps <> [] -> Forall (fun s => 0 < dof s) ps ->
  params_init logmode (Val T) km kdx kdy = Ok p0 -> args_ok logmode T km kdx kdy ->
  exists p hist q, radiation_run logmode ps n (radiation_begin logmode ps p0, [0]) = Ok (p, hist) /\
    radiation_run logmode ps (S n) (radiation_begin logmode ps p0, [0]) = Ok (q, hist ++ [0]) /\
    pT q < pT p /\ prho q = Some (plasma_density ps (pT p)) /\ pH q = hubble (plasma_density ps (pT p)) /\ plasma_density ps (pT q) < plasma_density ps (pT p).
Proof.
  intros logmode ps T km kdx kdy p0 n HN HD HI HA. destruct (init_fwd _ _ _ _ _ _ HI HA) as [HG HF]. assert (HO : rad_ok ps) by (split; assumption).
  destruct HA as (HT & Hm & Hs). destruct (init_good logmode T km kdx kdy p0 HI HT Hm) as (_ & ET & _ & Ea & EaT & _).
  assert (Ha : 0 < paT p0) by (destruct HG as (_ & _ & Q & _); lra).
  assert (HTT : paT p0 / pa p0 = T). { rewrite EaT, <- Ea. pose proof HG as (_ & _ & _ & Q & _). field. lra. }
  pose proof (rho_rad_pos ps T HO HT) as HR.
  unfold radiation_begin. rewrite HTT, ET. fold (rho_rad ps T).
  destruct (begin_facts logmode (rho_rad ps T) (total (fun s => rad_entropy s T T) ps) p0 HG HF HR) as (G1 & F1 & E1 & E2 & E3 & E4 & E5 & E6).
  set (p1 := evolve_begin logmode (rho_rad ps T) (total (fun s => rad_entropy s T T) ps) p0) in *.
  destruct (radiation_age logmode ps p1 n HO G1 F1 ltac:(lra)) as (p & hist & E & H0 & Gp & Fp & Ap & Mp & _).
  destruct (radiation_step_age logmode ps p hist HO Gp Fp ltac:(lra) H0) as (q & E' & Gq & _ & Aq & Mq & _ & _ & PR & PT & _).
  exists p, hist, q. split; [exact E|]. split; [cbn [radiation_run]; rewrite E; exact E'|].
  pose proof Gp as (_ & K2 & _ & K4 & _). assert (HTp : 0 < pT p). { apply (Rmult_lt_reg_l (pa p)); [exact K4|]. lra. }
  assert (HK : 0 < pa p / pa q < 1). { split; [apply Rdiv_lt_0_compat; lra|]. apply (Rmult_lt_reg_r (pa q)); [lra|]. replace (pa p / pa q * pa q) with (pa p) by (field; lra). lra. }
  rewrite !plasma_rho, hubble_Hub. split; [rewrite PT; nra|]. split; [exact PR|]. split.
  - pose proof (radiation_step_ok logmode ps p hist HO Gp Fp ltac:(lra) H0) as Q. rewrite Q in E'. injection E' as <-. cbn. unfold Hub, rho_rad.
    replace (paT p / pa p) with (pT p) by (rewrite <- K2; field; lra). reflexivity.
  - rewrite PT, rho_rad_scale. pose proof (rho_rad_pos ps (pT p) HO HTp) as P. assert ((pa p / pa q) ^ 4 < 1). { set (k := pa p / pa q) in *. assert (0 <= k * k < 1) by nra. replace (k ^ 4) with (k * k * (k * k)) by ring. nra. } nra.
Qed.
Print Assumptions C183_recorded_density.

(* The default step dy = 0.05: every elapsed time is 61/861, about 7 per cent, short *)
Theorem C183_accurate_refuted : exists p0, params_init true (Val 1) (Val 1) Absent (Val (5 / 100)) = Ok p0 /\
  forall n, exists q hist, radiation_run true [mkTpart 2 0 false] n (radiation_begin true [mkTpart 2 0 false] p0, [0]) = Ok (q, hist) /\
    let t0 := plasma_age [mkTpart 2 0 false] 1 in let t := plasma_age [mkTpart 2 0 false] (pT q) in
    pt q - t0 = (t - t0) * (1 - 61 / 861).
Proof.
  assert (EI : exists p0, params_init true (Val 1) (Val 1) Absent (Val (5 / 100)) = Ok p0).
  { unfold params_init. destruct (Req_EM_T 1 0); [lra|]. cbn zeta. destruct (Req_EM_T (5 / 100) 0); [lra|]. eexists. reflexivity. }
  destruct EI as [p0 EI]. exists p0. split; [exact EI|]. intros n.
  destruct (C183_radiation_log [mkTpart 2 0 false] 1 (Val 1) Absent (5 / 100) p0 n) as (q & hist & E & ET).
  - discriminate.
  - constructor; [cbn; lra | constructor].
  - exact EI.
  - unfold args_ok, step_kw. repeat split; try lra; intros ? Q; injection Q as <-; lra.
  - exists q, hist. split; [exact E|]. cbn zeta. rewrite ET. field.
Qed.
Print Assumptions C183_accurate_refuted.

(* matter and radiation together meet the hypotheses of C183_bracket *)
Example C183_example : let rho := fun a : R => 1 / a ^ 4 + 1 / a ^ 3 in
  (forall a, 1 <= a -> 0 < rho a) /\ (forall a, 1 <= a -> continuous rho a) /\
  (forall a b, 1 <= a <= b -> rho b <= rho a) /\ (forall a b, 1 <= a <= b -> rho a * a ^ 4 <= rho b * b ^ 4).
Proof.
  cbn zeta. assert (HP : forall a, 1 <= a -> 0 < a ^ 4 /\ 0 < a ^ 3) by (intros a Ha; split; apply pow_lt; lra).
  split; [|split; [|split]].
  - intros a Ha. destruct (HP a Ha). pose proof (Rdiv_lt_0_compat 1 (a ^ 4) Rlt_0_1 H). pose proof (Rdiv_lt_0_compat 1 (a ^ 3) Rlt_0_1 H0). lra.
  - intros a Ha. apply (ex_derive_continuous (V := R_NormedModule)). auto_derive. destruct (HP a Ha) as [P1 P2]. cbn in P1, P2. split; [apply Rgt_not_eq; exact P1|]. split; [apply Rgt_not_eq; exact P2 | exact I].
  - intros a b H. destruct (HP a ltac:(lra)). unfold Rdiv. rewrite !Rmult_1_l. apply Rplus_le_compat; apply Rinv_le_contravar; try assumption; apply pow_incr; lra.
  - intros a b H. replace ((1 / a ^ 4 + 1 / a ^ 3) * a ^ 4) with (1 + a) by (field; lra). replace ((1 / b ^ 4 + 1 / b ^ 3) * b ^ 4) with (1 + b) by (field; lra). lra.
Qed.
