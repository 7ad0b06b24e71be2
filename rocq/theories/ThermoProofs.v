From Coq Require Import Reals Lra Psatz.
From Coquelicot Require Import Coquelicot.
From Verif Require Import Base IntegratorsModel IntegratorsProofs ParamsModel ParamsProofs ThermoModel.
Open Scope R_scope.

(* ---------- radiation ---------- *)
Lemma total_scal {A} (f g : A -> R) k ps : (forall p, f p = k * g p) -> total f ps = k * total g ps.
Proof. intros H. induction ps as [|p ps IH]; cbn; [ring|]. fold (total f ps). fold (total g ps). rewrite IH, H. ring. Qed.

Lemma total_zero {A} (f : A -> R) ps : (forall p, f p = 0) -> total f ps = 0.
Proof. intros H. induction ps as [|p ps IH]; cbn; [reflexivity|]. fold (total f ps). rewrite IH, H. ring. Qed.

Lemma total_plus {A} (f g : A -> R) ps : total (fun p => f p + g p) ps = total f ps + total g ps.
Proof. induction ps as [|p ps IH]; cbn; [ring|]. fold (total f ps). fold (total g ps). fold (total (fun p => f p + g p) ps). rewrite IH. ring. Qed.

Lemma total_ext {A} (f g : A -> R) ps : (forall p, In p ps -> f p = g p) -> total f ps = total g ps.
Proof. induction ps as [|p ps IH]; cbn; intros H; [reflexivity|]. fold (total f ps). fold (total g ps). rewrite H, IH; auto. Qed.

Lemma total_pos {A} (f : A -> R) ps : ps <> [] -> Forall (fun p => 0 < f p) ps -> 0 < total f ps.
Proof.
  intros HN H. destruct ps as [|p ps]; [easy|]. clear HN. revert p H. induction ps as [|p' ps IH]; intros p H; inversion H; subst; cbn.
  - lra.
  - specialize (IH p' H3). cbn in IH. lra.
Qed.

Definition stat_weight (p : tpart) : R := if fermion p then 7 / 8 else 1.

Lemma rad_rho_eq p T : rad_energy_density p T = stat_weight p * (dof p * PI ^ 2 / 30 * T ^ 4).
Proof. unfold rad_energy_density, stat_weight. destruct (fermion p); cbn; ring. Qed.

Lemma rad_den_eq p aT : rad_denominator p aT = stat_weight p * (2 * PI ^ 2 / 15 * dof p * aT ^ 3).
Proof. unfold rad_denominator, stat_weight. destruct (fermion p); cbn; ring. Qed.

Lemma stat_pos p : 0 < stat_weight p.
Proof. unfold stat_weight. destruct (fermion p); lra. Qed.

Lemma rad_rho_pos p T : 0 < dof p -> 0 < T -> 0 < rad_energy_density p T.
Proof.
  intros HD HT. rewrite rad_rho_eq. pose proof PI_RGT_0. pose proof (stat_pos p).
  assert (0 < PI ^ 2) by (apply pow_lt; lra). assert (0 < T ^ 4) by (now apply pow_lt).
  apply Rmult_lt_0_compat; auto. apply Rmult_lt_0_compat; auto. unfold Rdiv. apply Rmult_lt_0_compat; [now apply Rmult_lt_0_compat|lra].
Qed.

Lemma rad_den_pos p T : 0 < dof p -> 0 < T -> 0 < rad_denominator p T.
Proof.
  intros HD HT. rewrite rad_den_eq. pose proof PI_RGT_0. pose proof (stat_pos p).
  assert (0 < PI ^ 2) by (apply pow_lt; lra). assert (0 < T ^ 3) by (now apply pow_lt).
  apply Rmult_lt_0_compat; auto. apply Rmult_lt_0_compat; auto. apply Rmult_lt_0_compat; auto. lra.
Qed.

Lemma rad_derivative p aT a : a <> 0 ->
  is_derive (fun y => rad_energy_density p (y / a) * a ^ 4) aT (rad_denominator p aT).
Proof.
  intros Ha. rewrite rad_den_eq.
  apply (is_derive_ext (fun y => stat_weight p * (dof p * PI ^ 2 / 30 * y ^ 4))).
  - intros t. rewrite rad_rho_eq. change (@eq R (stat_weight p * (dof p * PI ^ 2 / 30 * t ^ 4)) (stat_weight p * (dof p * PI ^ 2 / 30 * (t / a) ^ 4) * a ^ 4)).
    field. exact Ha.
  - auto_derive; [exact I|]. cbn. field.
Qed.

(* ---------- an all-radiation universe ---------- *)
Lemma zipdot_zeros bs fs : Forall (fun x => x = 0) fs -> zipdot bs fs = 0.
Proof.
  intros H. revert bs. induction H as [|x l Hx H IH]; intros [|b bs]; cbn; auto. rewrite IH, Hx. ring.
Qed.

Lemma in_skipn_in {A} (l : list A) : forall n x, In x (skipn n l) -> In x l.
Proof. induction l as [|y l IH]; intros [|n] x; cbn; auto. intros H. right. eapply IH; eauto. Qed.

Lemma suffix_zeros (l : list R) z : Forall (fun x => x = 0) l -> Forall (fun x => x = 0) (py_suffix l z).
Proof.
  intros H. unfold py_suffix. apply Forall_forall. intros x HX. apply (proj1 (Forall_forall _ _) H). destruct (0 <=? z)%Z; eapply in_skipn_in; exact HX.
Qed.

Lemma increment_zero hist h : Forall (fun x => x = 0) hist -> make_step_increment hist 0 h = Ok 0.
Proof.
  intros H. unfold make_step_increment.
  assert (HS : Forall (fun x => x = 0) (py_suffix hist (- MAX_AB) ++ [0])).
  { apply Forall_app. split; [now apply suffix_zeros|repeat constructor]. }
  set (fs := py_suffix hist (- MAX_AB) ++ [0]) in *.
  assert (HL : (1 <= length fs)%nat) by (unfold fs; rewrite app_length; cbn; lia).
  clearbody fs. destruct (le_lt_dec (length fs) 5) as [L|L].
  - pose proof (ab_default [] fs h) as E. cbn [app] in E. rewrite E by lia. clear E.
    assert (HC : exists bs d, AB_coefficients (Z.of_nat (length fs)) = Some (bs, d)).
    { revert HL L. generalize (length fs). intros k. five k; intros; simpl; eauto. }
    destruct HC as (bs & d & HC). pose proof (ab_order_ok [] fs h (length fs) bs d HC eq_refl) as E. cbn [app] in E. rewrite E by lia.
    rewrite zipdot_zeros by auto. f_equal. unfold Rdiv. ring.
  - rewrite <- (firstn_skipn (length fs - 5) fs) in HS |- *. set (pre := firstn _ fs) in *. set (l := skipn _ fs) in *.
    assert (Hl : length l = 5%nat) by (unfold l; rewrite skipn_length; lia).
    apply Forall_app in HS. destruct HS as [_ HS].
    rewrite ab_default by (rewrite app_length, Hl; lia).
    rewrite (ab_order_ok pre l h (length l) [251; -1274; 2616; -2774; 1901] 720) by (rewrite ?Hl; auto; lia).
    rewrite zipdot_zeros by auto. f_equal. unfold Rdiv. ring.
Qed.

Definition rad_ok (ps : list tpart) := ps <> [] /\ Forall (fun p => 0 < dof p) ps.

Lemma radiation_step_ok logmode ps p hist : rad_ok ps -> Good logmode p -> Fwd logmode p -> 0 < paT p -> Forall (fun x => x = 0) hist ->
  radiation_step logmode ps (p, hist) = Ok (pstep logmode p (MakeStep 0 (total (fun s => rad_energy_density s (paT p / pa p)) ps) (total (fun s => rad_entropy s (paT p / pa p) (pT p)) ps)), hist ++ [0]).
Proof.
  intros (HN & HD) HG HF Ha HH. unfold radiation_step, fraction.
  assert (Hd : 0 < total (fun s => rad_denominator s (paT p)) ps).
  { apply total_pos; auto. eapply Forall_impl; [|exact HD]. cbn. intros s Hs. now apply rad_den_pos. }
  destruct (Req_EM_T _ 0) as [E|_]; [lra|]. rewrite (total_zero rad_numerator) by reflexivity.
  cbn [rbind]. assert (E : (if logmode then px p * 0 / total (fun s => rad_denominator s (paT p)) ps else 0 / total (fun s => rad_denominator s (paT p)) ps) = 0)
    by (destruct logmode; unfold Rdiv; ring).
  rewrite E, increment_zero by auto. reflexivity.
Qed.

Lemma radiation_run_inv logmode ps n p hist : rad_ok ps -> Good logmode p -> Fwd logmode p -> 0 < paT p -> Forall (fun x => x = 0) hist ->
  exists q hist', radiation_run logmode ps n (p, hist) = Ok (q, hist') /\ Good logmode q /\ Fwd logmode q /\ paT q = paT p /\ pm q = pm p /\ Forall (fun x => x = 0) hist'.
Proof.
  intros HO HG HF Ha HH. induction n as [|n IH]; [exists p, hist; auto 8|].
  destruct IH as (q & hist' & E & G & F & A & M & H). cbn [radiation_run]. rewrite E. cbn [rbind].
  rewrite radiation_step_ok by (auto; lra).
  set (o := MakeStep 0 _ _). assert (Hr : 0 < rho_of o).
  { unfold o. cbn [rho_of]. destruct HO as [HN HD]. apply total_pos; auto. eapply Forall_impl; [|exact HD]. cbn. intros s Hs.
    apply rad_rho_pos; auto. destruct G as (_ & _ & _ & G & _). apply Rdiv_lt_0_compat; lra. }
  destruct (step_good logmode q o G) as [G' M']; [unfold o in *; cbn [op_ok rho_of] in *; split; [auto|apply F]|].
  exists (pstep logmode q o), (hist' ++ [0]). split; [reflexivity|]. split; [exact G'|]. split; [now apply step_fwd|].
  split; [unfold o; cbn; lra|]. split; [congruence|]. apply Forall_app. split; auto.
Qed.

Lemma rad_total_scaling ps aT a : a <> 0 -> total (fun s => rad_energy_density s (aT / a)) ps * a ^ 4 = total (fun s => rad_energy_density s aT) ps.
Proof.
  intros Ha. rewrite (total_scal (fun s => rad_energy_density s (aT / a)) (fun s => rad_energy_density s aT) (/ a ^ 4)).
  - field. auto.
  - intros s. rewrite !rad_rho_eq. field. auto.
Qed.

Lemma rad_entropy_scaling ps aT a : a <> 0 -> aT <> 0 ->
  total (fun s => rad_entropy s (aT / a) (aT / a)) ps * a ^ 3 = total (fun s => rad_entropy s aT aT) ps.
Proof.
  intros Ha HT. rewrite (total_scal (fun s => rad_entropy s (aT / a) (aT / a)) (fun s => rad_entropy s aT aT) (/ a ^ 3)).
  - field. auto.
  - intros s. unfold rad_entropy. rewrite !rad_rho_eq. field. auto.
Qed.

(* state after n steps, in terms of the first state *)
Lemma radiation_universe logmode ps T km kdx kdy p0 hist n :
  rad_ok ps -> params_init logmode (Val T) km kdx kdy = Ok p0 -> args_ok logmode T km kdx kdy -> Forall (fun x => x = 0) hist ->
  exists p hist' p', radiation_run logmode ps n (p0, hist) = Ok (p, hist') /\ radiation_step logmode ps (p, hist') = Ok (p', hist' ++ [0]) /\
    paT p = paT p0 /\ paT p' = paT p0 /\ 0 < pa p /\ pa p < pa p' /\
    (exists rho, prho p' = Some rho /\ rho * pa p ^ 4 = total (fun s => rad_energy_density s T) ps * pa p0 ^ 4) /\
    pS p' * pa p ^ 3 = total (fun s => rad_entropy s T T) ps * pa p0 ^ 3.
Proof.
  intros HO HI HA HH. destruct (init_fwd _ _ _ _ _ _ HI HA) as [HG HF].
  destruct HA as (HT & Hm & Hs). destruct (init_good logmode T km kdx kdy p0 HI HT Hm) as (_ & ET & _ & Ea & EaT & _).
  assert (Ha : 0 < paT p0) by (destruct HG as (_ & _ & G & _); lra).
  destruct (radiation_run_inv logmode ps n p0 hist HO HG HF Ha HH) as (p & hist' & E & G & F & A & M & H).
  pose proof (radiation_step_ok logmode ps p hist' HO G F ltac:(lra) H) as E2.
  eexists p, hist', _. split; [exact E|]. split; [exact E2|]. split; [exact A|]. split; [cbn; lra|].
  assert (Gp : 0 < pa p) by apply G. assert (Gp0 : 0 < pa p0) by apply HG.
  assert (ETp : pT p = paT p / pa p). { destruct G as (_ & G2 & _). rewrite <- G2. field. lra. }
  assert (ET0 : T = paT p0 / pa p0). { rewrite EaT, <- Ea. field. lra. }
  split; [exact Gp|]. split; [|split].
  - cbn. destruct G as (G1 & _ & G3 & _). destruct F as [F _]. rewrite G1. apply Rmult_lt_reg_r with (pm p); [lra|].
    replace ((pa p * pm p + pdx p) / pm p * pm p) with (pa p * pm p + pdx p) by (field; lra). lra.
  - eexists. split; [reflexivity|]. rewrite (rad_total_scaling ps (paT p) (pa p)) by lra. rewrite A, ET0. rewrite rad_total_scaling by lra. reflexivity.
  - cbn [pS pstep params_update]. rewrite ETp. rewrite rad_entropy_scaling by lra. rewrite A, ET0. rewrite rad_entropy_scaling by lra. reflexivity.
Qed.

(* ---------- dust ---------- *)
Lemma dust_density_pos p T : 0 < dof p -> 0 < tmass p -> 0 < T -> 0 < dust_density p T.
Proof.
  intros HD HM HT. unfold dust_density. pose proof PI_RGT_0. apply Rmult_lt_0_compat; [|apply exp_pos].
  apply Rmult_lt_0_compat; auto. apply pow_lt, sqrt_lt_R0. apply Rdiv_lt_0_compat; auto. apply Rdiv_lt_0_compat; [now apply Rmult_lt_0_compat|lra].
Qed.

Lemma dust_density_mono p T T' : 0 < dof p -> 0 < tmass p -> 0 < T -> T < T' -> dust_density p T < dust_density p T'.
Proof.
  intros HD HM HT HL. unfold dust_density. pose proof PI_RGT_0.
  assert (H1 : tmass p * T / 2 / PI < tmass p * T' / 2 / PI).
  { unfold Rdiv. apply Rmult_lt_compat_r; [now apply Rinv_0_lt_compat|]. apply Rmult_lt_compat_r; [lra|]. now apply Rmult_lt_compat_l. }
  assert (H0 : 0 < tmass p * T / 2 / PI) by (apply Rdiv_lt_0_compat; auto; apply Rdiv_lt_0_compat; [now apply Rmult_lt_0_compat|lra]).
  assert (H2 : 0 < sqrt (tmass p * T / 2 / PI)) by now apply sqrt_lt_R0.
  assert (H3 : sqrt (tmass p * T / 2 / PI) < sqrt (tmass p * T' / 2 / PI)) by (apply sqrt_lt_1_alt; lra).
  assert (H4 : exp (- tmass p / T) < exp (- tmass p / T')).
  { apply exp_increasing. unfold Rdiv. rewrite <- !Ropp_mult_distr_l. apply Ropp_lt_contravar. apply Rmult_lt_compat_l; auto. apply Rinv_lt_contravar; [apply Rmult_lt_0_compat; lra|exact HL]. }
  apply Rmult_gt_0_lt_compat; auto.
  - apply exp_pos.
  - apply Rmult_lt_0_compat; auto. apply pow_lt. lra.
  - apply Rmult_lt_compat_l; auto. set (u := sqrt _) in *. set (v := sqrt (_ * T' / _ / _)) in *. cbn [pow]. rewrite !Rmult_1_r.
    assert (u * u < v * v) by (apply Rmult_gt_0_lt_compat; lra). apply Rmult_gt_0_lt_compat; try lra. apply Rmult_lt_0_compat; lra.
Qed.

(* the density vanishes with the temperature *)
Lemma dust_density_vanishes p : 0 < dof p -> 0 < tmass p -> forall eps, 0 < eps -> exists T0, 0 < T0 /\ forall T, 0 < T -> T < T0 -> dust_density p T < eps.
Proof.
  intros HD HM eps He. pose proof PI_RGT_0 as HP.
  (* below T1 the power is at most 1; then exp(-M/T) <= T/M *)
  set (T1 := 2 * PI / tmass p). assert (H1 : 0 < T1) by (apply Rdiv_lt_0_compat; lra).
  set (T2 := eps * tmass p / dof p). assert (H2 : 0 < T2) by (apply Rdiv_lt_0_compat; auto; now apply Rmult_lt_0_compat).
  exists (Rmin T1 T2). split; [now apply Rmin_pos|]. intros T HT HL.
  assert (L1 : T < T1) by (eapply Rlt_le_trans; [exact HL|apply Rmin_l]). assert (L2 : T < T2) by (eapply Rlt_le_trans; [exact HL|apply Rmin_r]).
  unfold dust_density.
  assert (U0 : 0 < tmass p * T / 2 / PI) by (apply Rdiv_lt_0_compat; auto; apply Rdiv_lt_0_compat; [now apply Rmult_lt_0_compat|lra]).
  assert (U1 : tmass p * T / 2 / PI < 1).
  { apply Rmult_lt_reg_r with (2 * PI / tmass p); [exact H1|]. replace (tmass p * T / 2 / PI * (2 * PI / tmass p)) with T by (field; lra). unfold T1 in L1. lra. }
  assert (S0 : 0 < sqrt (tmass p * T / 2 / PI)) by now apply sqrt_lt_R0.
  assert (S1 : sqrt (tmass p * T / 2 / PI) <= 1). { rewrite <- sqrt_1. apply sqrt_le_1_alt. lra. }
  assert (S3 : sqrt (tmass p * T / 2 / PI) ^ 3 <= 1). { rewrite <- (pow1 3). apply pow_incr. lra. }
  assert (Hx : 0 < tmass p / T) by (now apply Rdiv_lt_0_compat).
  assert (E1 : exp (- tmass p / T) < T / tmass p).
  { replace (- tmass p / T) with (- (tmass p / T)) by (field; lra). rewrite exp_Ropp. replace (T / tmass p) with (/ (tmass p / T)) by (field; lra).
    apply Rinv_lt_contravar; [apply Rmult_lt_0_compat; [auto|apply exp_pos]|]. pose proof (exp_ineq1 (tmass p / T)). lra. }
  apply Rle_lt_trans with (dof p * 1 * exp (- tmass p / T)).
  - apply Rmult_le_compat_r; [apply Rlt_le, exp_pos|]. apply Rmult_le_compat_l; lra.
  - apply Rlt_trans with (dof p * 1 * (T / tmass p)); [apply Rmult_lt_compat_l; lra|].
    apply Rmult_lt_reg_r with (tmass p / dof p); [now apply Rdiv_lt_0_compat|].
    replace (dof p * 1 * (T / tmass p) * (tmass p / dof p)) with T by (field; lra). replace (eps * (tmass p / dof p)) with T2 by (unfold T2; field; lra). exact L2.
Qed.

(* ---------- equilibrium quadrature ---------- *)
Lemma energy_nonneg p k : 0 <= energy p k.
Proof. unfold energy. destruct (Rlt_dec 0 (tmass p)); [apply sqrt_pos|apply Rabs_pos]. Qed.

Lemma energy_pos p k : 0 < k -> 0 < energy p k.
Proof.
  intros Hk. unfold energy. destruct (Rlt_dec 0 (tmass p)); [|rewrite Rabs_pos_eq; lra]. apply sqrt_lt_R0.
  apply Rplus_lt_le_0_compat; [now apply pow_lt|]. apply pow_le. lra.
Qed.

Lemma energy_sq p k : 0 <= tmass p -> energy p k ^ 2 = k ^ 2 + tmass p ^ 2.
Proof.
  intros HM. unfold energy. destruct (Rlt_dec 0 (tmass p)).
  - cbn [pow]. rewrite !Rmult_1_r. rewrite sqrt_sqrt; [ring|]. nra.
  - replace (tmass p) with 0 by lra. rewrite pow2_abs. ring.
Qed.

Lemma energy_ge_mass p k : 0 <= tmass p -> tmass p <= energy p k.
Proof. intros HM. pose proof (energy_sq p k HM). pose proof (energy_nonneg p k). apply Rsqr_incr_0; auto. unfold Rsqr. nra. Qed.

Lemma energy_ge_k p k : 0 <= tmass p -> 0 <= k -> k <= energy p k.
Proof. intros HM Hk. pose proof (energy_sq p k HM). pose proof (energy_nonneg p k). apply Rsqr_incr_0; auto. unfold Rsqr. nra. Qed.

Lemma occupation_pos p e : 0 < e -> 0 < occupation p e.
Proof.
  intros He. unfold occupation, eta. pose proof (exp_ineq1 e ltac:(lra)). apply Rdiv_lt_0_compat; [lra|]. destruct (fermion p); lra.
Qed.

(* a rule on (-1,1) maps to positive momenta *)
Definition interior (q : rule) : Prop := Forall (fun nw => -1 < fst nw < 1 /\ 0 <= snd nw) q.

Lemma rule_sum_le q f g : Forall (fun nw => 0 <= snd nw) q -> (forall x w, In (x, w) q -> f x <= g x) -> rule_sum q f <= rule_sum q g.
Proof.
  intros HW. induction HW as [|[x w] l Hw HW IH]; intros H; cbn; [lra|]. fold (rule_sum l f). fold (rule_sum l g).
  assert (f x <= g x) by (eapply H; left; reflexivity). cbn in Hw. assert (rule_sum l f <= rule_sum l g) by (apply IH; intros; eapply H; right; eauto).
  assert (f x * w <= g x * w) by (apply Rmult_le_compat_r; auto). lra.
Qed.

Lemma gaussian_le q f g b : interior q -> 0 < b -> (forall k, 0 < k -> f k <= g k) -> gaussian q f 0 b <= gaussian q g 0 b.
Proof.
  intros HI Hb H. unfold gaussian. destruct (Req_EM_T _ 0); [lra|]. apply Rmult_le_compat_l; [lra|]. apply rule_sum_le.
  - eapply Forall_impl; [|exact HI]. cbn. tauto.
  - intros x w HX. apply H. eapply Forall_forall in HI; eauto. cbn in HI. nra.
Qed.

Lemma gaussian_eq_on q f g b : interior q -> 0 < b -> (forall k, 0 < k -> f k = g k) -> gaussian q f 0 b = gaussian q g 0 b.
Proof. intros HI Hb H. apply Rle_antisym; apply gaussian_le; auto; intros; rewrite H; auto; lra. Qed.

Lemma gaussian_scal q f b k : gaussian q (fun x => k * f x) 0 b = k * gaussian q f 0 b.
Proof.
  unfold gaussian. destruct (Req_EM_T _ 0); [ring|]. rewrite rule_sum_scal. ring.
Qed.

Lemma gaussian_zero q b : gaussian q (fun _ => 0) 0 b = 0.
Proof. unfold gaussian. destruct (Req_EM_T _ 0); [ring|]. rewrite rule_sum_zero. ring. Qed.

Lemma base_pos p T k : 0 <= tmass p -> 0 <= dof p -> 0 < T -> 0 < k -> 0 <= occupation p (energy p k / T) * k ^ 2 * dof p / 2 / PI ^ 2.
Proof.
  intros HM HD HT Hk. pose proof (energy_pos p k Hk). pose proof PI_RGT_0.
  assert (0 < occupation p (energy p k / T)) by (apply occupation_pos; now apply Rdiv_lt_0_compat).
  unfold Rdiv. apply Rmult_le_pos; [|apply Rlt_le, Rinv_0_lt_compat, pow_lt; lra]. apply Rmult_le_pos; [|lra]. apply Rmult_le_pos; auto.
  apply Rmult_le_pos; [lra|]. apply pow_le. lra.
Qed.

Lemma pressure_int_eq p T k : 0 < k -> 3 * pressure_integrand p T k = (k ^ 2 / energy p k) * (occupation p (energy p k / T) * k ^ 2 * dof p / 2 / PI ^ 2).
Proof. intros Hk. pose proof (energy_pos p k Hk). pose proof PI_RGT_0. unfold pressure_integrand. field. lra. Qed.

Lemma energy_int_eq p T k : energy_integrand p T k = energy p k * (occupation p (energy p k / T) * k ^ 2 * dof p / 2 / PI ^ 2).
Proof. unfold energy_integrand. pose proof PI_RGT_0. field. lra. Qed.

Lemma thermo_inequalities q p T : interior q -> 0 <= tmass p -> 0 <= dof p -> 0 < T ->
  0 <= int_pressure q p T /\ 3 * int_pressure q p T <= int_energy_density q p T /\ tmass p * int_density q p T <= int_energy_density q p T /\
  (tmass p = 0 -> 3 * int_pressure q p T = int_energy_density q p T) /\ 0 <= int_density q p T.
Proof.
  intros HI HM HD HT. assert (HB : 0 < 20 * T) by lra. unfold int_pressure, int_energy_density, int_density.
  assert (P0 : forall k, 0 < k -> 0 <= k ^ 2 / energy p k <= energy p k).
  { intros k Hk. pose proof (energy_pos p k Hk). pose proof (energy_sq p k HM). split.
    - apply Rmult_le_pos; [apply pow2_ge_0|]. now apply Rlt_le, Rinv_0_lt_compat.
    - apply Rmult_le_reg_r with (energy p k); auto. replace (k ^ 2 / energy p k * energy p k) with (k ^ 2) by (field; lra). nra. }
  split; [|split; [|split; [|split]]].
  - apply Rle_trans with (gaussian q (fun _ => 0) 0 (20 * T)); [rewrite gaussian_zero; lra|]. apply gaussian_le; auto. intros k Hk.
    assert (0 <= 3 * pressure_integrand p T k); [|lra]. rewrite pressure_int_eq by auto. apply Rmult_le_pos; [now apply P0|now apply base_pos].
  - rewrite <- gaussian_scal. apply gaussian_le; auto. intros k Hk. rewrite pressure_int_eq, energy_int_eq by auto. apply Rmult_le_compat_r; [now apply base_pos|now apply P0].
  - rewrite <- gaussian_scal. apply gaussian_le; auto. intros k Hk. rewrite energy_int_eq. unfold density_integrand. apply Rmult_le_compat_r; [now apply base_pos|now apply energy_ge_mass].
  - intros H0. rewrite <- gaussian_scal. apply gaussian_eq_on; auto. intros k Hk. rewrite pressure_int_eq, energy_int_eq by auto. f_equal.
    unfold energy. destruct (Rlt_dec 0 (tmass p)); [lra|]. rewrite Rabs_pos_eq by lra. field. lra.
  - apply Rle_trans with (gaussian q (fun _ => 0) 0 (20 * T)); [rewrite gaussian_zero; lra|]. apply gaussian_le; auto. intros k Hk. now apply base_pos.
Qed.

(* ---------- free streaming ---------- *)
(* an integration functional over the momenta in D: it only sees the integrand
   there, and it is homogeneous *)
Definition homogeneous (D : R -> Prop) (L : (R -> R) -> R) : Prop :=
  (forall f g, (forall y, D y -> f y = g y) -> L f = L g) /\ (forall k f, L (fun y => k * f y) = k * L f).

Lemma noneq_density_eq D L p f a : homogeneous D L -> a <> 0 -> noneq_density L p f a * a ^ 3 = noneq_density L p f 1.
Proof.
  intros [HE HS] Ha. unfold noneq_density. rewrite Rmult_comm, <- HS. apply HE. intros y _. pose proof PI_RGT_0. field. lra.
Qed.

Lemma noneq_rho_eq D L p f a : homogeneous D L -> tmass p = 0 -> a <> 0 -> noneq_energy_density L p f a * a ^ 4 = noneq_energy_density L p f 1.
Proof.
  intros [HE HS] HM Ha. unfold noneq_energy_density. rewrite Rmult_comm, <- HS. apply HE. intros y _. pose proof PI_RGT_0.
  unfold cenergy. rewrite HM. destruct (Rlt_dec 0 0); [lra|]. field. lra.
Qed.

Lemma noneq_pressure_third L p f a : homogeneous (Rle 0) L -> tmass p = 0 -> a <> 0 -> noneq_pressure L p f a = noneq_energy_density L p f a / 3.
Proof.
  intros [HE HS] HM Ha. pose proof PI_RGT_0. unfold noneq_pressure, noneq_energy_density.
  assert (E : forall y, 0 <= y -> cenergy p y (tmass p * a) = y). { intros y Hy. unfold cenergy. destruct (Rlt_dec 0 (tmass p)); [lra|]. apply Rabs_pos_eq. lra. }
  replace (L (fun y => f y * y ^ 2 * cenergy p y (tmass p * a) * dof p / 2 / PI ^ 2 / a ^ 4) / 3) with (/ 3 * L (fun y => f y * y ^ 2 * cenergy p y (tmass p * a) * dof p / 2 / PI ^ 2 / a ^ 4)) by (unfold Rdiv; ring).
  rewrite <- HS. destruct (Req_EM_T (tmass p) 0); [|contradiction]. apply HE; intros y Hy; rewrite E by auto; field; lra.
Qed.

Lemma noneq_pressure_third_gauss L p f a : homogeneous (Rlt 0) L -> tmass p = 0 -> a <> 0 -> noneq_pressure_gauss L p f a = noneq_energy_density L p f a / 3.
Proof.
  intros [HE HS] HM Ha. pose proof PI_RGT_0. unfold noneq_pressure_gauss, noneq_energy_density.
  assert (E : forall y, 0 <= y -> cenergy p y (tmass p * a) = y). { intros y Hy. unfold cenergy. destruct (Rlt_dec 0 (tmass p)); [lra|]. apply Rabs_pos_eq. lra. }
  replace (L (fun y => f y * y ^ 2 * cenergy p y (tmass p * a) * dof p / 2 / PI ^ 2 / a ^ 4) / 3) with (/ 3 * L (fun y => f y * y ^ 2 * cenergy p y (tmass p * a) * dof p / 2 / PI ^ 2 / a ^ 4)) by (unfold Rdiv; ring).
  rewrite <- HS. apply HE; intros y Hy; rewrite E by lra; field; lra.
Qed.

(* any rule with nodes in D is such a functional *)
Lemma rule_homogeneous (D : R -> Prop) q : Forall (fun nw => D (fst nw)) q -> homogeneous D (rule_sum q).
Proof.
  intros H. split.
  - intros f g HE. induction H as [|[x w] l Hx H IH]; cbn; [reflexivity|]. fold (rule_sum l f). fold (rule_sum l g). rewrite IH, HE; auto.
  - intros k f. apply rule_sum_scal.
Qed.
