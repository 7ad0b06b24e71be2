(* C27, C80-C85, C107: thermodynamics and the temperature equation. *)
From Coq Require Import Reals Lra Psatz.
From Coquelicot Require Import Coquelicot.
From Verif Require Import Base EvolveModel IntegratorsModel IntegratorsProofs ParamsModel ParamsProofs ThermoModel ThermoProofs ThermoProofs2 ThermoProofs3.
From Verif Require ParticleModel ParticleProofs.
Open Scope R_scope.

(* ---------- C27 ---------- *)
(* After any number n of steps from the constructor the state p has the initial
   aT; the next step stores the energy density and entropy of state p, and these
   scale as a^-4 and a^-3. *)
Theorem C27_pure_radiation : forall logmode ps T km kdx kdy p0 hist n,
  ps <> [] -> Forall (fun p => 0 < dof p) ps ->
  params_init logmode (Val T) km kdx kdy = Ok p0 -> args_ok logmode T km kdx kdy -> Forall (fun x => x = 0) hist ->
  exists p hist' p', radiation_run logmode ps n (p0, hist) = Ok (p, hist') /\ radiation_step logmode ps (p, hist') = Ok (p', hist' ++ [0]) /\
    paT p = paT p0 /\ paT p' = paT p0 /\ 0 < pa p /\ pa p < pa p' /\
    (exists rho, prho p' = Some rho /\ rho * pa p ^ 4 = total (fun s => rad_energy_density s T) ps * pa p0 ^ 4) /\
    pS p' * pa p ^ 3 = total (fun s => rad_entropy s T T) ps * pa p0 ^ 3.
Proof. intros. apply radiation_universe with km kdx kdy; auto. split; auto. Qed.
Print Assumptions C27_pure_radiation.
Example C27_case : exists p0, params_init true (Val 2) Absent Absent (Val 1) = Ok p0 /\ args_ok true 2 Absent Absent (Val 1) /\
  Forall (fun p => 0 < dof p) [mkTpart 2 0 false; mkTpart 6 0 true].
Proof.
  unfold params_init. destruct (Req_EM_T 2 0); [lra|]. destruct (Req_EM_T 1 0); [lra|]. eexists. split; [reflexivity|]. split.
  - split; [lra|]. split; [intros; discriminate|]. cbn. intros s E. injection E as <-. lra.
  - repeat (apply Forall_cons; [cbn; lra|]); apply Forall_nil.
Qed.

(* ---------- C80 ---------- *)
(* f and f' are the distribution before and after, known at the grid points *)
Theorem C80_free_streaming : forall dens integrate es c s q L p f f' a a',
  ParticleModel.thermal_dyn c = true -> ParticleModel.in_equilibrium c s = false -> ParticleModel.fast_decay c = None -> ParticleModel.cints s = [] ->
  Forall (fun ee => ParticleModel.saT s / ParticleModel.ea (fst ee) <= ParticleModel.Tdec s) es ->
  nonneg_dist (ParticleModel.sdist s) -> length (ParticleModel.sdist s) = length (ParticleModel.template c) ->
  ParticleProofs.prun dens integrate (c, s) (free_ops es) = Ok q ->
  ParticleModel.sdist s = map (fun y => Fin (f y)) (ParticleModel.template c) -> ParticleModel.sdist (snd q) = map (fun y => Fin (f' y)) (ParticleModel.template c) ->
  homogeneous (fun y => In y (ParticleModel.template c)) L -> a <> 0 -> a' <> 0 ->
  noneq_density L p f' a' * a' ^ 3 = noneq_density L p f a * a ^ 3 /\
  (tmass p = 0 -> noneq_energy_density L p f' a' * a' ^ 4 = noneq_energy_density L p f a * a ^ 4).
Proof.
  intros dens integrate es c s q L p f f' a a' HT HE HF HC HA HG HL HR Hf Hf' HO Ha Ha'.
  pose proof (free_streaming dens integrate es c s q HT HE HF HC HA HG HL HR) as HD. rewrite Hf, Hf' in HD.
  assert (EQ : forall y, In y (ParticleModel.template c) -> f' y = f y).
  { revert HD. generalize (ParticleModel.template c). induction l as [|z l IH]; cbn; [contradiction|]. intros E y [<-|HI]; [now injection E|]. apply IH; auto. now injection E. }
  rewrite (noneq_density_eq _ L p f' a' HO Ha'), (noneq_density_eq _ L p f a HO Ha). split.
  - unfold noneq_density. apply HO. intros y Hy. now rewrite EQ.
  - intros HM. rewrite (noneq_rho_eq _ L p f' a' HO HM Ha'), (noneq_rho_eq _ L p f a HO HM Ha). unfold noneq_energy_density. apply HO. intros y Hy. now rewrite EQ.
Qed.
Print Assumptions C80_free_streaming.
Theorem C80_massless_pressure : forall L p f a, tmass p = 0 -> a <> 0 ->
  (homogeneous (Rle 0) L -> noneq_pressure L p f a = noneq_energy_density L p f a / 3) /\
  (homogeneous (Rlt 0) L -> noneq_pressure_gauss L p f a = noneq_energy_density L p f a / 3).
Proof. intros L p f a HM Ha. split; intros HO; [now apply noneq_pressure_third|now apply noneq_pressure_third_gauss]. Qed.
Print Assumptions C80_massless_pressure.
Example C80_case : homogeneous (fun y => In y [0; 1; 2]) (rule_sum [(0, 1); (1, 4); (2, 1)]) /\ noneq_density (rule_sum [(0, 1); (1, 4); (2, 1)]) (mkTpart (2 * PI ^ 2) 0 true) (fun y => y) 1 = 12.
Proof. pose proof PI_RGT_0. split; [apply rule_homogeneous; repeat (apply Forall_cons; [cbn; tauto|]); apply Forall_nil|]. unfold noneq_density, rule_sum. cbn [fold_right fst snd dof]. field. lra. Qed.

(* ---------- C81 ---------- *)
Theorem C81_equation_of_state : forall p T, T <> 0 ->
  rad_pressure p T = rad_energy_density p T / 3 /\ rad_entropy p T T * T = rad_energy_density p T + rad_pressure p T /\
  (forall k, rad_energy_density p (k * T) = k ^ 4 * rad_energy_density p T /\ rad_density p (k * T) = k ^ 3 * rad_density p T).
Proof.
  intros p T HT. unfold rad_pressure, rad_entropy. split; [field|]. split; [field; auto|]. intros k. rewrite !rad_rho_eq. split; [ring|].
  unfold rad_density. destruct (fermion p); cbn; field; apply PI_neq0.
Qed.
Print Assumptions C81_equation_of_state.
Theorem C81_statistics : forall g m T,
  rad_energy_density (mkTpart g m true) T = 7 / 8 * rad_energy_density (mkTpart g m false) T /\
  rad_density (mkTpart g m true) T = 3 / 4 * rad_density (mkTpart g m false) T /\
  rad_denominator (mkTpart g m true) T = 7 / 8 * rad_denominator (mkTpart g m false) T /\
  rad_energy_density (mkTpart g m false) T = g * PI ^ 2 / 30 * T ^ 4.
Proof. intros g m T. unfold rad_energy_density, rad_density, rad_denominator. cbn. repeat split; try field; apply PI_neq0. Qed.
Print Assumptions C81_statistics.
Theorem C81_denominator_is_heat_capacity : forall p aT a, a <> 0 ->
  is_derive (fun y => rad_energy_density p (y / a) * a ^ 4) aT (rad_denominator p aT).
Proof. exact rad_derivative. Qed.
Print Assumptions C81_denominator_is_heat_capacity.
Example C81_case : rad_energy_density (mkTpart (30 / PI ^ 2) 0 true) 2 = 14.
Proof. pose proof PI_RGT_0. unfold rad_energy_density. cbn. field. lra. Qed.

(* ---------- C82 ---------- *)
Theorem C82_dust : forall p T, 0 < dof p -> 0 < tmass p -> 0 < T ->
  0 < dust_density p T /\ dust_pressure p T = dust_density p T * T /\ dust_energy_density p T = dust_density p T * (tmass p + 3 / 2 * T) /\
  dust_entropy p T T * T = dust_energy_density p T + dust_pressure p T /\
  (3 * dust_pressure p T <= dust_energy_density p T <-> 3 / 2 * T <= tmass p).
Proof.
  intros p T HD HM HT. pose proof (dust_density_pos p T HD HM HT) as HN. unfold dust_pressure, dust_energy_density, dust_entropy.
  split; [exact HN|]. split; [reflexivity|]. split; [ring|]. split; [field; lra|].
  set (n := dust_density p T) in *. split; intros H.
  - apply Rmult_le_reg_r with n; auto. lra.
  - assert (3 / 2 * T * n <= tmass p * n) by (apply Rmult_le_compat_r; lra). lra.
Qed.
Print Assumptions C82_dust.
Theorem C82_density_decreases_to_zero : forall p, 0 < dof p -> 0 < tmass p ->
  (forall T T', 0 < T -> T < T' -> dust_density p T < dust_density p T') /\
  (forall eps, 0 < eps -> exists T0, 0 < T0 /\ forall T, 0 < T -> T < T0 -> dust_density p T < eps).
Proof. intros p HD HM. split; [intros; now apply dust_density_mono|now apply dust_density_vanishes]. Qed.
Print Assumptions C82_density_decreases_to_zero.
Example C82_case : dust_density (mkTpart 2 (2 * PI) false) 1 = 2 * exp (- (2 * PI)).
Proof. pose proof PI_RGT_0. unfold dust_density. cbn [dof tmass]. replace (2 * PI * 1 / 2 / PI) with 1 by (field; lra). rewrite sqrt_1. replace (- (2 * PI) / 1) with (- (2 * PI)) by field. ring. Qed.

(* ---------- C83 ---------- *)
Theorem C83_inequalities : forall q p T, Forall (fun nw => -1 < fst nw < 1 /\ 0 <= snd nw) q -> 0 <= tmass p -> 0 <= dof p -> 0 < T ->
  0 <= int_pressure q p T /\ 3 * int_pressure q p T <= int_energy_density q p T /\ tmass p * int_density q p T <= int_energy_density q p T /\
  (tmass p = 0 -> 3 * int_pressure q p T = int_energy_density q p T) /\ 0 <= int_density q p T.
Proof. exact thermo_inequalities. Qed.
Print Assumptions C83_inequalities.
Theorem C83_entropy : forall q p T, T <> 0 -> int_entropy q p T T * T = int_energy_density q p T + int_pressure q p T.
Proof. intros q p T HT. unfold int_entropy. field. exact HT. Qed.
Print Assumptions C83_entropy.
Example C83_case : 0 < int_density [(0, 2)] (mkTpart 2 1 true) 1.
Proof.
  unfold int_density, gaussian. destruct (Req_EM_T _ 0); [lra|]. unfold rule_sum. cbn [fold_right fst snd].
  assert (0 < density_integrand (mkTpart 2 1 true) 1 ((20 * 1 - 0) / 2 * 0 + (20 * 1 + 0) / 2)); [|lra].
  unfold density_integrand. pose proof PI_RGT_0. set (k := _ + (20 * 1 + 0) / 2). assert (0 < k) by (unfold k; lra).
  pose proof (energy_pos (mkTpart 2 1 true) k H0). cbn [dof].
  assert (0 < occupation (mkTpart 2 1 true) (energy (mkTpart 2 1 true) k / 1)) by (apply occupation_pos; lra).
  apply Rdiv_lt_0_compat; [|apply pow_lt; lra]. assert (0 < k ^ 2) by (now apply pow_lt). nra.
Qed.

(* ---------- C84 ---------- *)
(* Logarithmic steps: d(aT)/d(ln x) is the fraction the code computes and
   df/d(ln x) is the collision integral. Then d(rho a^3) = -P d(a^3) for the
   whole content, equilibrium and not. *)
Theorem C84_first_law : forall q mm a (th : R -> R) (th' : R) ss fr,
  Forall (fun nw => 0 < fst nw) q -> 0 < a -> 0 < mm -> 0 < th a -> Forall (fun s => 0 <= mass_of s) ss -> Forall (kinetic q (1 / a) a) ss ->
  fraction true (mm * a) (total (fun s => N_s q mm s a (th a)) ss) (total (fun s => D_s q s a (th a)) ss) = Ok fr ->
  is_derive th a th' -> th' = fr / a ->
  is_derive (fun b => total (fun s => rho_s q s b (th b)) ss * b ^ 3) a (- total (fun s => P_s q s a (th a)) ss * (3 * a ^ 2)).
Proof.
  intros q mm a th th' ss fr HQ Ha Hmm Ht HC HK HF Hd Hth. unfold fraction in HF. destruct (Req_EM_T _ 0) as [|HD]; [discriminate|]. injection HF as <-.
  pose proof (first_law q mm (1 / a) a th th' ss HQ Ha Hmm Ht HC HK HD Hd) as H.
  match type of H with _ -> is_derive _ _ ?v => replace v with (- total (fun s => P_s q s a (th a)) ss * (3 * a ^ 2)) in H by (unfold Rdiv; ring) end.
  refine (H _). rewrite Hth. field. split; auto; lra.
Qed.
Print Assumptions C84_first_law.
(* a universe of photons, massive electrons and a neutrino with collisions, at
   a = 1, meets the hypotheses with the slope the code computes *)
Example C84_case : exists th fr, let ss := ex_content (fun b y => y * ln b) in
  Forall (fun nw => 0 < fst nw) ex_rule /\ 0 < th 1 /\ Forall (fun s => 0 <= mass_of s) ss /\ Forall (kinetic ex_rule (1 / 1) 1) ss /\
  fraction true (2 * 1) (total (fun s => N_s ex_rule 2 s 1 (th 1)) ss) (total (fun s => D_s ex_rule s 1 (th 1)) ss) = Ok fr /\ is_derive th 1 (fr / 1).
Proof.
  set (ss := ex_content (fun b y => y * ln b)).
  set (N := total (fun s => N_s ex_rule 2 s 1 1) ss). set (D := total (fun s => D_s ex_rule s 1 1) ss).
  assert (HD : 0 < D) by (apply total_D_pos; [exact ex_rule_pos|lra|cbn; lra|repeat (apply Forall_cons; [cbn; lra|]); apply Forall_nil]).
  exists (fun b => 1 + 2 * 1 * N / D * (b - 1)), (2 * 1 * N / D). cbv zeta. replace (1 + 2 * 1 * N / D * (1 - 1)) with 1 by ring. fold ss. fold N. fold D.
  split; [eapply Forall_impl; [|exact ex_rule_pos]; cbn; tauto|]. split; [lra|]. split; [unfold ss, ex_content; repeat (apply Forall_cons; [cbn; lra|]); apply Forall_nil|]. split.
  - unfold ss, ex_content; repeat (apply Forall_cons; [cbn [kinetic]; try exact I; unfold ex_rule; repeat (apply Forall_cons; [apply ex_log|]); apply Forall_nil|]); apply Forall_nil.
  - split; [unfold fraction; destruct (Req_EM_T D 0); [lra|reflexivity]|]. replace (2 * 1 * N / D / 1) with (2 * 1 * N / D) by (field; lra). apply ex_linear.
Qed.

(* ---------- C107 ---------- *)
(* Linear steps: df/dx is the collision integral and d(aT)/dx the fraction. *)
Theorem C107_linear_mode_defect : forall q mm a (th : R -> R) (th' : R) ss fr,
  Forall (fun nw => 0 < fst nw) q -> 0 < a -> 0 < mm -> 0 < th a -> Forall (fun s => 0 <= mass_of s) ss -> Forall (kinetic q mm a) ss ->
  fraction false (mm * a) (total (fun s => N_s q mm s a (th a)) ss) (total (fun s => D_s q s a (th a)) ss) = Ok fr ->
  is_derive th a th' -> th' = fr * mm ->
  is_derive (fun b => total (fun s => rho_s q s b (th b)) ss * b ^ 3) a
    (- total (fun s => P_s q s a (th a)) ss * (3 * a ^ 2) + (mm * a - 1) / a ^ 2 * total (fun s => K_s q s a) ss).
Proof.
  intros q mm a th th' ss fr HQ Ha Hmm Ht HC HK HF Hd Hth. unfold fraction in HF. destruct (Req_EM_T _ 0) as [|HD]; [discriminate|]. injection HF as <-.
  pose proof (first_law q mm mm a th th' ss HQ Ha Hmm Ht HC HK HD Hd) as H.
  match type of H with _ -> is_derive _ _ ?v => replace v with (- total (fun s => P_s q s a (th a)) ss * (3 * a ^ 2) + (mm * a - 1) / a ^ 2 * total (fun s => K_s q s a) ss) in H by (field; lra) end.
  refine (H _). rewrite Hth. ring.
Qed.
Print Assumptions C107_linear_mode_defect.
Theorem C107_linear_mode_refuted : ~ (forall q mm a (th : R -> R) (th' : R) ss fr,
  Forall (fun nw => 0 < fst nw) q -> 0 < a -> 0 < mm -> 0 < th a -> Forall (fun s => 0 <= mass_of s) ss -> Forall (kinetic q mm a) ss ->
  fraction false (mm * a) (total (fun s => N_s q mm s a (th a)) ss) (total (fun s => D_s q s a (th a)) ss) = Ok fr ->
  is_derive th a th' -> th' = fr * mm ->
  is_derive (fun b => total (fun s => rho_s q s b (th b)) ss * b ^ 3) a (- total (fun s => P_s q s a (th a)) ss * (3 * a ^ 2))).
Proof.
  intros HALL. set (ss := ex_content (fun b y => y * (2 * b))).
  set (N := total (fun s => N_s ex_rule 2 s 1 1) ss). set (D := total (fun s => D_s ex_rule s 1 1) ss).
  assert (HD : 0 < D) by (apply total_D_pos; [exact ex_rule_pos|lra|cbn; lra|repeat (apply Forall_cons; [cbn; lra|]); apply Forall_nil]).
  set (k := N / D * 2). set (th := fun b => 1 + k * (b - 1)). assert (E1 : th 1 = 1) by (unfold th; ring).
  assert (H1 : Forall (fun nw : R * R => 0 < fst nw) ex_rule) by (eapply Forall_impl; [|exact ex_rule_pos]; cbn; tauto).
  assert (H2 : Forall (fun s => 0 <= mass_of s) ss) by (unfold ss, ex_content; repeat (apply Forall_cons; [cbn; lra|]); apply Forall_nil).
  assert (H3 : Forall (kinetic ex_rule 2 1) ss) by (unfold ss, ex_content; repeat (apply Forall_cons; [cbn [kinetic]; try exact I; unfold ex_rule; repeat (apply Forall_cons; [apply ex_lin|]); apply Forall_nil|]); apply Forall_nil).
  assert (H4 : fraction false (2 * 1) (total (fun s => N_s ex_rule 2 s 1 (th 1)) ss) (total (fun s => D_s ex_rule s 1 (th 1)) ss) = Ok (N / D)).
  { rewrite E1. fold N. fold D. unfold fraction. destruct (Req_EM_T D 0); [lra|reflexivity]. }
  assert (H5 : is_derive th 1 k) by apply ex_linear.
  pose proof (HALL ex_rule 2 1 th k ss (N / D) H1 ltac:(lra) ltac:(lra) ltac:(lra) H2 H3 H4 H5 eq_refl) as A.
  pose proof (C107_linear_mode_defect ex_rule 2 1 th k ss (N / D) H1 ltac:(lra) ltac:(lra) ltac:(lra) H2 H3 H4 H5 eq_refl) as B.
  apply is_derive_unique in A. apply is_derive_unique in B. rewrite A in B.
  assert (K : total (fun s => K_s ex_rule s 1) ss = 17 / PI ^ 2).
  { unfold ss, ex_content, total, ex_rule, K_s, rule_sum. cbn [fold_right fst snd dof]. unfold cenergy. cbn [tmass]. destruct (Rlt_dec 0 0); [lra|]. rewrite !Rabs_pos_eq by lra. pose proof PI_RGT_0. field. lra. }
  rewrite K in B. pose proof PI_RGT_0. assert (0 < 17 / PI ^ 2) by (apply Rdiv_lt_0_compat; [lra|apply pow_lt; lra]). lra.
Qed.
Print Assumptions C107_linear_mode_refuted.

(* ---------- C85 ---------- *)
(* pointwise, with the substitution y(eps) = aT*sqrt(eps*(eps+2 m/aT)) and its derivative *)
Theorem C85_substitution : forall p n m aT eps, 0 <= tmass p -> (tmass p = 0 -> m = 0) -> 0 <= m -> 0 < aT -> 0 < eps -> (1 <= n)%nat ->
  exists y dy, y ^ 2 = aT ^ 2 * (eps * (eps + 2 * (m / aT))) /\ 0 < y /\ is_derive (fun e => aT * sqrt (e * (e + 2 * (m / aT)))) eps dy /\ y = aT * sqrt (eps * (eps + 2 * (m / aT))) /\
    legendre_integrand p n m aT y * dy = aT ^ (n + 1) * exp (- (m / aT)) * (exp (- eps) * laguerre_integrand p n m aT eps).
Proof.
  intros p n m aT eps HM H0 Hm Ha He Hn. assert (Hmat : 0 <= m / aT) by (apply Rmult_le_pos; [auto|now apply Rlt_le, Rinv_0_lt_compat]).
  exists (sub_y aT (m / aT) eps), (sub_dy aT (m / aT) eps). split; [|split; [|split; [|split]]].
  - unfold sub_y. rewrite Rpow_mult_distr. f_equal. cbn [pow]. rewrite Rmult_1_r, sqrt_sqrt; [reflexivity|]. apply Rmult_le_pos; lra.
  - apply (sub_energy p aT m eps); auto.
  - apply sub_derive; auto.
  - reflexivity.
  - apply laguerre_substitution; auto.
Qed.
Print Assumptions C85_substitution.
(* and for the integrals over any range *)
Theorem C85_integrals : forall p n m aT e1 e2, 0 <= tmass p -> (tmass p = 0 -> m = 0) -> 0 <= m -> 0 < aT -> (1 <= n)%nat -> 0 < e1 -> e1 <= e2 ->
  RInt (fun eps => aT ^ (n + 1) * exp (- (m / aT)) * (exp (- eps) * laguerre_integrand p n m aT eps)) e1 e2 =
  RInt (legendre_integrand p n m aT) (aT * sqrt (e1 * (e1 + 2 * (m / aT)))) (aT * sqrt (e2 * (e2 + 2 * (m / aT)))).
Proof. exact laguerre_integral. Qed.
Print Assumptions C85_integrals.
Example C85_case : laguerre_integrand (mkTpart 4 1 true) 2 0 1 1 = 1 / (exp (-1) + 1) ^ 2.
Proof. unfold laguerre_integrand. cbn [INR]. replace (1 * (1 + 2 * (0 / 1))) with 1 by field. unfold Rpower. rewrite ln_1, Rmult_0_r, exp_0. replace (-(1) - 0 / 1) with (-1) by field. unfold eta. cbn [fermion]. field. pose proof (exp_pos (-1)). lra. Qed.
