From Coq Require Import Reals Lra Psatz.
From Coquelicot Require Import Coquelicot.
From Verif Require Import Base IntegratorsModel IntegratorsProofs ThermoModel ThermoProofs.
Open Scope R_scope.

(* ---------- energy conservation ---------- *)
(* The particle content of a universe: a species in the radiation regime, one in
   the intermediate regime, or one out of equilibrium whose distribution at
   scale factor a and comoving momentum y is f a y and whose collision integral
   is coll a y. *)
Inductive species := SRad (p : tpart) | SInt (p : tpart) | SNon (p : tpart) (f coll : R -> R -> R).

(* The quantities the code computes, all with the quadrature q over comoving
   momenta y: the equilibrium integrands are functions of the physical momentum
   y/a, whose measure is dy/a. th is aT, mm is params.m, x = mm*a. *)
Definition rho_s (q : rule) (s : species) (a th : R) : R :=
  match s with
  | SRad p => rad_energy_density p (th / a)
  | SInt p => rule_sum q (fun y => energy_integrand p (th / a) (y / a)) / a
  | SNon p f _ => noneq_energy_density (rule_sum q) p (f a) a
  end.
Definition P_s (q : rule) (s : species) (a th : R) : R :=
  match s with
  | SRad p => rad_pressure p (th / a)
  | SInt p => rule_sum q (fun y => pressure_integrand p (th / a) (y / a)) / a
  | SNon p f _ => noneq_pressure (rule_sum q) p (f a) a
  end.
Definition N_s (q : rule) (mm : R) (s : species) (a th : R) : R :=
  match s with
  | SRad p => rad_numerator p
  | SInt p => int_numerator (Int_legendre (rule_sum q) p 2 (tmass p * a) th) p (mm * a) mm th
  | SNon p _ coll => noneq_numerator (rule_sum q) p (coll a) a (mm * a)
  end.
Definition D_s (q : rule) (s : species) (a th : R) : R :=
  match s with
  | SRad p => rad_denominator p th
  | SInt p => int_denominator (Int_legendre (rule_sum q) p 2 (tmass p * a) th) (Int_legendre (rule_sum q) p 4 (tmass p * a) th) (tmass p * a) th
  | SNon _ _ _ => noneq_denominator
  end.
(* comoving energy the collision term brings in per unit of the evolution variable *)
Definition K_s (q : rule) (s : species) (a : R) : R :=
  match s with
  | SNon p _ coll => rule_sum q (fun y => dof p / 2 / PI ^ 2 * y ^ 2 * cenergy p y (tmass p * a) * coll a y)
  | _ => 0
  end.
Definition mass_of (s : species) : R := match s with SRad p | SInt p | SNon p _ _ => tmass p end.
(* the distribution obeys df/da = c * coll *)
Definition kinetic (q : rule) (c a : R) (s : species) : Prop :=
  match s with
  | SNon p f coll => Forall (fun nw => is_derive (fun b => f b (fst nw)) a (c * coll a (fst nw))) q
  | _ => True
  end.

Lemma cenergy_sqrt p y m : 0 <= tmass p -> 0 < y -> (tmass p = 0 -> m = 0) -> cenergy p y m = sqrt (y ^ 2 + m ^ 2).
Proof.
  intros HM Hy H0. unfold cenergy. destruct (Rlt_dec 0 (tmass p)); [reflexivity|]. rewrite H0 by lra.
  replace (y ^ 2 + 0 ^ 2) with (Rsqr y) by (unfold Rsqr; ring). now rewrite sqrt_Rsqr_abs.
Qed.

Lemma energy_scaled p y a : 0 <= tmass p -> 0 < y -> 0 < a -> energy p (y / a) = cenergy p y (tmass p * a) / a.
Proof.
  intros HM Hy Ha. rewrite cenergy_sqrt by (auto; intros ->; ring). unfold energy. destruct (Rlt_dec 0 (tmass p)).
  - replace ((y / a) ^ 2 + tmass p ^ 2) with ((y ^ 2 + (tmass p * a) ^ 2) / (a ^ 2)) by (field; lra).
    rewrite sqrt_div_alt by (apply pow_lt; lra). f_equal. replace (a ^ 2) with (Rsqr a) by (unfold Rsqr; ring). rewrite sqrt_Rsqr; lra.
  - replace (tmass p) with 0 by lra. replace (y ^ 2 + (0 * a) ^ 2) with (Rsqr y) by (unfold Rsqr; ring). rewrite sqrt_Rsqr by lra.
    apply Rabs_pos_eq. apply Rlt_le, Rdiv_lt_0_compat; auto.
Qed.

Lemma cenergy_pos p y m : 0 < y -> 0 < cenergy p y m.
Proof.
  intros Hy. unfold cenergy. destruct (Rlt_dec 0 (tmass p)); [|rewrite Rabs_pos_eq; lra]. apply sqrt_lt_R0.
  apply Rplus_lt_le_0_compat; [now apply pow_lt|apply pow2_ge_0].
Qed.

Lemma cenergy_sq p y m : 0 <= tmass p -> 0 < y -> (tmass p = 0 -> m = 0) -> cenergy p y m ^ 2 = y ^ 2 + m ^ 2.
Proof.
  intros HM Hy H0. rewrite cenergy_sqrt by auto. cbn [pow]. rewrite !Rmult_1_r. rewrite sqrt_sqrt; [ring|]. nra.
Qed.

Lemma is_derive_rule_sum q (F : R -> R -> R) (dF : R -> R) a :
  Forall (fun nw => is_derive (fun b => F b (fst nw)) a (dF (fst nw))) q ->
  is_derive (fun b => rule_sum q (F b)) a (rule_sum q dF).
Proof.
  intros H. induction H as [|[y w] l Hy H IH]; cbn.
  - apply @is_derive_const.
  - cbn [fst] in Hy. fold (rule_sum l dF).
    apply (is_derive_plus (fun b => F b y * w) (fun b => rule_sum l (F b)) a (dF y * w) (rule_sum l dF)); auto.
    apply (is_derive_ext (fun b => w * F b y)); [intros; apply Rmult_comm|]. rewrite (Rmult_comm (dF y)).
    apply (is_derive_scal (fun b => F b y) a w (dF y)). exact Hy.
Qed.

Lemma energy_derive M y a : 0 < y -> is_derive (fun b => sqrt (y ^ 2 + (M * b) ^ 2)) a (M ^ 2 * a / sqrt (y ^ 2 + (M * a) ^ 2)).
Proof.
  intros Hy. assert (0 < y ^ 2 + (M * a) ^ 2) by (apply Rplus_lt_le_0_compat; [now apply pow_lt|apply pow2_ge_0]).
  assert (0 < sqrt (y ^ 2 + (M * a) ^ 2)) by now apply sqrt_lt_R0.
  auto_derive; [cbn [pow] in *; lra|]. cbn [pow] in *. rewrite !Rmult_1_r in *. field. lra.
Qed.

Lemma node_derive_gen (E th : R -> R) (dE th' eta a : R) :
  0 < th a -> is_derive E a dE -> is_derive th a th' -> exp (E a / th a) + eta <> 0 ->
  is_derive (fun b => E b / (exp (E b / th b) + eta)) a
    (dE / (exp (E a / th a) + eta) - E a * exp (E a / th a) / (exp (E a / th a) + eta) ^ 2 * (dE / th a - E a * th' / th a ^ 2)).
Proof.
  intros Ht HE Hd HX. auto_derive.
  - split; [exists dE; exact HE|]. split; [exists dE; exact HE|]. split; [exists th'; exact Hd|]. split; [lra|]. split; [exact HX|exact I].
  - change (fun x : R => E x) with E. change (fun x : R => th x) with th.
    rewrite (is_derive_unique E a dE HE), (is_derive_unique th a th' Hd). change (E a * / th a) with (E a / th a). field. split; [lra|exact HX].
Qed.

Lemma node_derive M y eta th th' a :
  let e := sqrt (y ^ 2 + (M * a) ^ 2) in let X := exp (e / th a) in
  0 < y -> 0 < th a -> is_derive th a th' -> X + eta <> 0 ->
  is_derive (fun b => sqrt (y ^ 2 + (M * b) ^ 2) / (exp (sqrt (y ^ 2 + (M * b) ^ 2) / th b) + eta)) a
    (M ^ 2 * a / e / (X + eta) - e * X / (X + eta) ^ 2 * (M ^ 2 * a / (e * th a) - e * th' / th a ^ 2)).
Proof.
  intros e X Hy Ht Hd HX. assert (He : 0 < e).
  { unfold e. apply sqrt_lt_R0. apply Rplus_lt_le_0_compat; [now apply pow_lt|apply pow2_ge_0]. }
  pose proof (node_derive_gen _ th _ th' eta a Ht (energy_derive M y a Hy) Hd HX) as H. cbv beta in H. fold e in H. fold X in H.
  replace (M ^ 2 * a / (e * th a)) with (M ^ 2 * a / e / th a) by (field; lra). exact H.
Qed.

Lemma occ_denominator p e : 0 < e -> exp e + eta p <> 0.
Proof. intros He. pose proof (exp_ineq1 e ltac:(lra)). unfold eta. destruct (fermion p); lra. Qed.

Lemma rule_sum_ext_on q f g : Forall (fun nw => f (fst nw) = g (fst nw)) q -> rule_sum q f = rule_sum q g.
Proof. intros H. induction H as [|[y w] l Hy H IH]; cbn; [reflexivity|]. fold (rule_sum l f). fold (rule_sum l g). rewrite IH. cbn in Hy. now rewrite Hy. Qed.

Lemma rule_sum_scal_r q f c : rule_sum q f * c = rule_sum q (fun y => c * f y).
Proof. rewrite rule_sum_scal. ring. Qed.

(* collects a combination of sums with the same nodes *)
Lemma rule_sum_lin2 q f g c d : c * rule_sum q f + d * rule_sum q g = rule_sum q (fun y => c * f y + d * g y).
Proof. rewrite rule_sum_plus, !rule_sum_scal. reflexivity. Qed.

(* the comoving energy density of one species *)
Lemma species_derive q mm c a (th : R -> R) (th' : R) s :
  Forall (fun nw => 0 < fst nw) q -> 0 < a -> 0 < mm -> 0 < th a -> is_derive th a th' -> 0 <= mass_of s -> kinetic q c a s ->
  is_derive (fun b => rho_s q s b (th b) * b ^ 4) a
    ((rho_s q s a (th a) - 3 * P_s q s a (th a)) * a ^ 3 - mm * N_s q mm s a (th a) + th' * D_s q s a (th a) + (c - 1 / a) * K_s q s a).
Proof.
  intros HQ Ha Hmm Ht Hd HM HK. pose proof PI_RGT_0 as HP. destruct s as [p|p|p f coll]; cbn [rho_s P_s N_s D_s K_s mass_of kinetic] in *.
  - apply (is_derive_ext_loc (fun b => stat_weight p * (dof p * PI ^ 2 / 30) * th b ^ 4)).
    + exists (mkposreal a Ha). intros b Hb. rewrite rad_rho_eq. assert (b <> 0). { intros ->. unfold ball in Hb. cbn in Hb. unfold AbsRing_ball, abs, minus, plus, opp in Hb. cbn in Hb. rewrite Rplus_0_l, Rabs_Ropp, Rabs_pos_eq in Hb; lra. }
      change (@eq R (stat_weight p * (dof p * PI ^ 2 / 30) * th b ^ 4) (stat_weight p * (dof p * PI ^ 2 / 30 * (th b / b) ^ 4) * b ^ 4)). field. auto.
    + rewrite rad_den_eq. unfold rad_pressure, rad_numerator.
      replace ((rad_energy_density p (th a / a) - 3 * (1 * rad_energy_density p (th a / a) / 3)) * a ^ 3 - mm * 0 + th' * (stat_weight p * (2 * PI ^ 2 / 15 * dof p * th a ^ 3)) + (c - 1 / a) * 0)
        with (stat_weight p * (dof p * PI ^ 2 / 30) * (INR 4 * th' * th a ^ 3)) by (cbn [INR]; field; lra).
      apply (is_derive_scal (fun b => th b ^ 4)). apply (is_derive_pow th 4 a th' Hd).
  - (* intermediate *)
    set (C := dof p / 2 / PI ^ 2).
    apply (is_derive_ext_loc (fun b => rule_sum q (fun y => C * y ^ 2 * (sqrt (y ^ 2 + (tmass p * b) ^ 2) / (exp (sqrt (y ^ 2 + (tmass p * b) ^ 2) / th b) + eta p))))).
    + assert (HT : locally a (fun b => 0 < b /\ 0 < th b)).
      { apply filter_and; [exact (open_gt 0 a Ha)|].
        assert (HC : continuous th a) by (apply @ex_derive_continuous; eexists; exact Hd).
        exact (HC _ (open_gt 0 (th a) Ht)). }
      revert HT. apply filter_imp. intros b [Hb Htb].
      change (@eq R (rule_sum q (fun y => C * y ^ 2 * (sqrt (y ^ 2 + (tmass p * b) ^ 2) / (exp (sqrt (y ^ 2 + (tmass p * b) ^ 2) / th b) + eta p)))) (rule_sum q (fun y => energy_integrand p (th b / b) (y / b)) / b * b ^ 4)).
      replace (rule_sum q (fun y => energy_integrand p (th b / b) (y / b)) / b * b ^ 4) with (rule_sum q (fun y => energy_integrand p (th b / b) (y / b)) * b ^ 3) by (field; lra).
      rewrite rule_sum_scal_r. apply rule_sum_ext_on. eapply Forall_impl; [|exact HQ]. intros [y w] Hy. cbn in Hy. cbn [fst].
      unfold energy_integrand. rewrite energy_scaled by auto. pose proof (cenergy_sqrt p y (tmass p * b) HM Hy ltac:(intros ->; ring)) as EC. rewrite <- EC.
      unfold occupation. pose proof (cenergy_pos p y (tmass p * b) Hy).
      replace (cenergy p y (tmass p * b) / b / (th b / b)) with (cenergy p y (tmass p * b) / th b) by (field; lra).
      assert (exp (cenergy p y (tmass p * b) / th b) + eta p <> 0) by (apply occ_denominator; now apply Rdiv_lt_0_compat).
      unfold C. field. lra.
    + set (e := fun y => cenergy p y (tmass p * a)). set (X := fun y => exp (e y / th a)).
      set (dF := fun y => C * y ^ 2 * ((tmass p) ^ 2 * a / e y / (X y + eta p) - e y * X y / (X y + eta p) ^ 2 * ((tmass p) ^ 2 * a / (e y * th a) - e y * th' / th a ^ 2))).
      match goal with |- is_derive _ _ ?v => replace v with (rule_sum q dF) end.
      * apply is_derive_rule_sum. eapply Forall_impl; [|exact HQ]. intros [y w] Hy. cbn in Hy. cbn [fst].
        unfold dF. apply (is_derive_scal (fun b => sqrt (y ^ 2 + (tmass p * b) ^ 2) / (exp (sqrt (y ^ 2 + (tmass p * b) ^ 2) / th b) + eta p)) a (C * y ^ 2)).
        pose proof (cenergy_sqrt p y (tmass p * a) HM Hy ltac:(intros ->; ring)) as EC. unfold X, e. rewrite EC.
        apply node_derive; auto. rewrite <- EC. apply occ_denominator. apply Rdiv_lt_0_compat; auto. now apply cenergy_pos.
      * unfold int_numerator, int_denominator, Int_legendre.
        set (I2 := rule_sum q (legendre_integrand p 2 (tmass p * a) (th a))). set (I4 := rule_sum q (legendre_integrand p 4 (tmass p * a) (th a))).
        set (RE := rule_sum q (fun y => energy_integrand p (th a / a) (y / a))). set (RP := rule_sum q (fun y => pressure_integrand p (th a / a) (y / a))).
        replace ((RE / a - 3 * (RP / a)) * a ^ 3 - mm * (tmass p ^ 2 * (mm * a) / mm ^ 2 / th a * (dof p / 2 / PI ^ 2 * I2)) + th' * ((dof p / 2 / PI ^ 2 * I4 + (tmass p * a) ^ 2 * (dof p / 2 / PI ^ 2 * I2)) / th a ^ 2) + (c - 1 / a) * 0)
          with (1 * (a ^ 2 * RE + (- 3 * a ^ 2) * RP) + 1 * ((th' / th a ^ 2 * C * (tmass p * a) ^ 2 - tmass p ^ 2 * a / th a * C) * I2 + (th' / th a ^ 2 * C) * I4)) by (unfold C; field; lra).
        unfold RE, RP, I2, I4. rewrite !rule_sum_lin2. apply rule_sum_ext_on. eapply Forall_impl; [|exact HQ]. intros [y w] Hy. cbn in Hy. cbn [fst].
        unfold dF, energy_integrand, pressure_integrand, legendre_integrand. rewrite energy_scaled by auto.
        pose proof (cenergy_pos p y (tmass p * a) Hy) as He. pose proof (cenergy_sq p y (tmass p * a) HM Hy ltac:(intros ->; ring)) as HS.
        unfold occupation, X, e. replace (cenergy p y (tmass p * a) / a / (th a / a)) with (cenergy p y (tmass p * a) / th a) by (field; lra).
        assert (HX : exp (cenergy p y (tmass p * a) / th a) + eta p <> 0) by (apply occ_denominator; now apply Rdiv_lt_0_compat).
        set (E := cenergy p y (tmass p * a)) in *. set (Z := exp (E / th a)) in *. clearbody E Z.
        assert (HM2 : tmass p ^ 2 = (E ^ 2 - y ^ 2) / a ^ 2) by (rewrite HS; field; lra).
        replace ((tmass p * a) ^ 2) with (E ^ 2 - y ^ 2) by (rewrite HS; ring). rewrite HM2. unfold C. field. lra.
  - (* non-equilibrium *)
    set (C := dof p / 2 / PI ^ 2).
    set (M := tmass p) in *.
    apply (is_derive_ext_loc (fun b => rule_sum q (fun y => C * y ^ 2 * (f b y * sqrt (y ^ 2 + (M * b) ^ 2))))).
    + assert (HT : locally a (fun b => 0 < b)) by exact (open_gt 0 a Ha).
      revert HT. apply filter_imp. intros b Hb.
      change (@eq R (rule_sum q (fun y => C * y ^ 2 * (f b y * sqrt (y ^ 2 + (M * b) ^ 2)))) (noneq_energy_density (rule_sum q) p (f b) b * b ^ 4)).
      unfold noneq_energy_density. rewrite rule_sum_scal_r. apply rule_sum_ext_on. eapply Forall_impl; [|exact HQ]. intros [y w] Hy. cbn in Hy. cbn [fst].
      fold M. rewrite (cenergy_sqrt p y (M * b) HM Hy ltac:(unfold M; intros ->; ring)). unfold C. field. lra.
    + set (e := fun y => cenergy p y (M * a)).
      set (dF := fun y => C * y ^ 2 * (c * coll a y * e y + f a y * (M ^ 2 * a / e y))).
      match goal with |- is_derive _ _ ?v => replace v with (rule_sum q dF) end.
      * apply is_derive_rule_sum. apply Forall_forall. intros [y w] HI. cbn [fst].
        assert (Hy : 0 < y) by (eapply Forall_forall in HQ; [|exact HI]; exact HQ).
        assert (Hf : is_derive (fun b => f b y) a (c * coll a y)) by (eapply Forall_forall in HK; [|exact HI]; exact HK).
        unfold dF. apply (is_derive_scal (fun b => f b y * sqrt (y ^ 2 + (M * b) ^ 2)) a (C * y ^ 2)).
        pose proof (cenergy_sqrt p y (M * a) HM Hy ltac:(unfold M; intros ->; ring)) as EC. unfold e. rewrite EC.
        apply (is_derive_mult (fun b => f b y) (fun b => sqrt (y ^ 2 + (M * b) ^ 2)) a (c * coll a y) (M ^ 2 * a / sqrt (y ^ 2 + (M * a) ^ 2))); auto.
        -- now apply energy_derive.
        -- intros; apply Rmult_comm.
      * unfold noneq_numerator, noneq_denominator. fold M.
        assert (EP : noneq_pressure (rule_sum q) p (f a) a = rule_sum q (fun y => f a y * y ^ 4 / cenergy p y (M * a) * dof p / 6 / PI ^ 2 / a ^ 4)).
        { unfold noneq_pressure. fold M. destruct (Req_EM_T M 0) as [E0|]; [|reflexivity]. apply rule_sum_ext_on. eapply Forall_impl; [|exact HQ]. intros [y w] Hy. cbn in Hy. cbn [fst].
          replace (cenergy p y (M * a)) with y; [field; lra|]. unfold cenergy. fold M. destruct (Rlt_dec 0 M); [lra|]. rewrite Rabs_pos_eq; lra. }
        rewrite EP. unfold noneq_energy_density. fold M.
        set (A1 := rule_sum q (fun y => f a y * y ^ 2 * cenergy p y (M * a) * dof p / 2 / PI ^ 2 / a ^ 4)).
        set (A2 := rule_sum q (fun y => f a y * y ^ 4 / cenergy p y (M * a) * dof p / 6 / PI ^ 2 / a ^ 4)).
        set (A3 := rule_sum q (fun y => -1 * dof p / 2 / PI ^ 2 * y ^ 2 * cenergy p y (M * a) * coll a y / (mm * a))).
        set (A4 := rule_sum q (fun y => C * y ^ 2 * cenergy p y (M * a) * coll a y)).
        replace ((A1 - 3 * A2) * a ^ 3 - mm * A3 + th' * 0 + (c - 1 / a) * A4) with (1 * (a ^ 3 * A1 + (- 3 * a ^ 3) * A2) + 1 * ((- mm) * A3 + (c - 1 / a) * A4)) by ring.
        unfold A1, A2, A3, A4. rewrite !rule_sum_lin2. apply rule_sum_ext_on. eapply Forall_impl; [|exact HQ]. intros [y w] Hy. cbn in Hy. cbn [fst].
        unfold dF, e. pose proof (cenergy_pos p y (M * a) Hy) as He. pose proof (cenergy_sq p y (M * a) HM Hy ltac:(unfold M; intros ->; ring)) as HS.
        set (E := cenergy p y (M * a)) in *. clearbody E.
        assert (HM2 : M ^ 2 = (E ^ 2 - y ^ 2) / a ^ 2) by (rewrite HS; field; lra). rewrite HM2. unfold C. field. lra.
Qed.

Lemma is_derive_total {A} (F : A -> R -> R) (dF : A -> R) a ss :
  Forall (fun s => is_derive (F s) a (dF s)) ss -> is_derive (fun b => total (fun s => F s b) ss) a (total dF ss).
Proof.
  intros H. induction H as [|s ss Hs H IH]; cbn; [apply @is_derive_const|].
  apply (is_derive_plus (F s) (fun b => total (fun s => F s b) ss) a (dF s) (total dF ss)); auto.
Qed.

Definition content_ok (ss : list species) : Prop := Forall (fun s => 0 <= mass_of s) ss.

(* the first law, with the contribution of a badly normalised collision term *)
Lemma first_law q mm c a (th : R -> R) (th' : R) ss :
  Forall (fun nw => 0 < fst nw) q -> 0 < a -> 0 < mm -> 0 < th a -> content_ok ss -> Forall (kinetic q c a) ss ->
  total (fun s => D_s q s a (th a)) ss <> 0 -> is_derive th a th' ->
  th' = mm * (total (fun s => N_s q mm s a (th a)) ss / total (fun s => D_s q s a (th a)) ss) ->
  is_derive (fun b => total (fun s => rho_s q s b (th b)) ss * b ^ 3) a
    (- total (fun s => P_s q s a (th a)) ss * (3 * a ^ 2) + (c - 1 / a) * total (fun s => K_s q s a) ss / a).
Proof.
  intros HQ Ha Hmm Ht HC HK HD Hd Hth.
  set (Rt := fun b => total (fun s => rho_s q s b (th b) * b ^ 4) ss).
  assert (HR : is_derive Rt a (total (fun s => (rho_s q s a (th a) - 3 * P_s q s a (th a)) * a ^ 3 - mm * N_s q mm s a (th a) + th' * D_s q s a (th a) + (c - 1 / a) * K_s q s a) ss)).
  { unfold Rt. apply (is_derive_total (fun s b => rho_s q s b (th b) * b ^ 4)). unfold content_ok in HC. apply Forall_forall. intros s Hs.
    eapply Forall_forall in HC; [|exact Hs]. eapply Forall_forall in HK; [|exact Hs]. apply species_derive; auto. }
  set (dR := total _ ss) in HR.
  assert (EdR : dR = (total (fun s => rho_s q s a (th a)) ss - 3 * total (fun s => P_s q s a (th a)) ss) * a ^ 3 + (c - 1 / a) * total (fun s => K_s q s a) ss).
  { unfold dR. clear HR dR Rt.
    transitivity ((total (fun s => rho_s q s a (th a)) ss - 3 * total (fun s => P_s q s a (th a)) ss) * a ^ 3 - mm * total (fun s => N_s q mm s a (th a)) ss + th' * total (fun s => D_s q s a (th a)) ss + (c - 1 / a) * total (fun s => K_s q s a) ss).
    - clear. induction ss as [|s ss IH]; [cbn; ring|]. unfold total in *. cbn [fold_right]. rewrite IH. ring.
    - rewrite Hth. field. split; auto. lra. }
  assert (ER : forall b, Rt b = total (fun s => rho_s q s b (th b)) ss * b ^ 4).
  { intros b. unfold Rt. rewrite (total_scal _ (fun s => rho_s q s b (th b)) (b ^ 4)); [ring|intros; ring]. }
  apply (is_derive_ext_loc (fun b => Rt b / b)).
  - assert (HT : locally a (fun b => 0 < b)) by exact (open_gt 0 a Ha). revert HT. apply filter_imp. intros b Hb.
    change (@eq R (Rt b / b) (total (fun s => rho_s q s b (th b)) ss * b ^ 3)). rewrite ER. field. lra.
  - pose proof (is_derive_div Rt (fun b => b) a dR 1 HR (is_derive_id a) ltac:(lra)) as HF.
    match goal with |- is_derive _ _ ?v => replace v with ((dR * a - Rt a * 1) / a ^ 2); [exact HF|] end.
    rewrite ER, EdR. field. lra.
Qed.

(* ---------- the Gauss-Laguerre substitution ---------- *)
(* the substitution y(eps) and its derivative *)
Definition sub_y (aT mat eps : R) : R := aT * sqrt (eps * (eps + 2 * mat)).
Definition sub_dy (aT mat eps : R) : R := aT * (eps + mat) / sqrt (eps * (eps + 2 * mat)).

Lemma sub_derive aT mat eps : 0 < eps -> 0 <= mat -> is_derive (sub_y aT mat) eps (sub_dy aT mat eps).
Proof.
  intros He Hm. unfold sub_y, sub_dy. assert (H : 0 < eps * (eps + 2 * mat)) by (apply Rmult_lt_0_compat; lra).
  assert (0 < sqrt (eps * (eps + 2 * mat))) by now apply sqrt_lt_R0.
  auto_derive; [lra|]. field. lra.
Qed.

Lemma sub_energy p aT m eps : 0 <= tmass p -> (tmass p = 0 -> m = 0) -> 0 <= m -> 0 < aT -> 0 < eps ->
  0 < sub_y aT (m / aT) eps /\ cenergy p (sub_y aT (m / aT) eps) m = aT * (eps + m / aT).
Proof.
  intros HM H0 Hm Ha He. assert (Hmat : 0 <= m / aT) by (apply Rmult_le_pos; [auto|now apply Rlt_le, Rinv_0_lt_compat]).
  assert (H : 0 < eps * (eps + 2 * (m / aT))) by (apply Rmult_lt_0_compat; lra).
  assert (HY : 0 < sub_y aT (m / aT) eps) by (apply Rmult_lt_0_compat; [auto|now apply sqrt_lt_R0]).
  split; [exact HY|]. rewrite cenergy_sqrt by auto.
  assert (E : sub_y aT (m / aT) eps ^ 2 + m ^ 2 = Rsqr (aT * (eps + m / aT))).
  { unfold sub_y. rewrite Rpow_mult_distr. replace (sqrt (eps * (eps + 2 * (m / aT))) ^ 2) with (eps * (eps + 2 * (m / aT))).
    - unfold Rsqr. field. lra.
    - cbn [pow]. rewrite Rmult_1_r, sqrt_sqrt; lra. }
  rewrite E. apply sqrt_Rsqr. apply Rmult_le_pos; lra.
Qed.

Lemma Rpower_half_pow w n : 0 < w -> (1 <= n)%nat -> Rpower w ((INR n - 1) / 2) * sqrt w = sqrt w ^ n.
Proof.
  intros Hw Hn. rewrite <- Rpower_sqrt by auto. rewrite <- Rpower_plus, <- Rpower_pow by (apply exp_pos). rewrite Rpower_mult. f_equal. field.
Qed.

Lemma laguerre_substitution p n m aT eps : 0 <= tmass p -> (tmass p = 0 -> m = 0) -> 0 <= m -> 0 < aT -> 0 < eps -> (1 <= n)%nat ->
  legendre_integrand p n m aT (sub_y aT (m / aT) eps) * sub_dy aT (m / aT) eps =
  aT ^ (n + 1) * exp (- (m / aT)) * (exp (- eps) * laguerre_integrand p n m aT eps).
Proof.
  intros HM H0 Hm Ha He Hn. destruct (sub_energy p aT m eps HM H0 Hm Ha He) as [HY HE].
  unfold legendre_integrand, laguerre_integrand. rewrite HE. set (mat := m / aT) in *.
  assert (Hmat : 0 <= mat) by (unfold mat; apply Rmult_le_pos; [auto|now apply Rlt_le, Rinv_0_lt_compat]).
  replace (aT * (eps + mat) / aT) with (eps + mat) by (field; lra).
  set (u := eps + mat). assert (Hu : 0 < u) by (unfold u; lra).
  replace (- eps - mat) with (- u) by (unfold u; ring).
  set (w := eps * (eps + 2 * mat)). assert (Hw : 0 < w) by (unfold w; apply Rmult_lt_0_compat; lra).
  assert (Hs : 0 < sqrt w) by now apply sqrt_lt_R0.
  unfold sub_y, sub_dy. fold w. fold u. rewrite Rpow_mult_distr.
  replace (exp (- mat)) with (exp (- u) / exp (- eps)).
  2:{ unfold Rdiv. rewrite <- exp_Ropp, <- exp_plus. f_equal. unfold u. ring. }
  assert (Hx : 0 < exp (- eps)) by apply exp_pos.
  pose proof (occ_denominator p u Hu) as HD.
  assert (HD' : exp (- u) + eta p <> 0).
  { unfold eta. pose proof (exp_pos (- u)). destruct (fermion p); [lra|]. assert (exp (- u) < exp 0) by (apply exp_increasing; lra). rewrite exp_0 in *. lra. }
  assert (Het : eta p ^ 2 = 1) by (unfold eta; destruct (fermion p); ring).
  assert (EX : exp u / (exp u + eta p) ^ 2 = exp (- u) / (exp (- u) + eta p) ^ 2).
  { assert (Hp : 0 < exp u) by apply exp_pos.
    assert (HR : (exp u + eta p) ^ 2 = exp u ^ 2 * (exp (- u) + eta p) ^ 2).
    { rewrite exp_Ropp. transitivity (exp u ^ 2 + 2 * eta p * exp u + eta p ^ 2); [ring|]. rewrite Het.
      transitivity (1 + 2 * eta p * exp u + exp u ^ 2 * eta p ^ 2); [rewrite Het; ring|]. field. lra. }
    rewrite HR. set (v := exp (- u)) in *. assert (Ev : v * exp u = 1) by (unfold v; rewrite exp_Ropp; field; lra). assert (Ev2 : v = / exp u) by (apply Rmult_eq_reg_r with (exp u); [rewrite Ev; field; lra|lra]). clearbody v.
    replace (exp u / (exp u ^ 2 * (v + eta p) ^ 2)) with (/ exp u / (v + eta p) ^ 2) by (field; split; [exact HD'|lra]). now rewrite <- Ev2. }
  replace (aT ^ n * sqrt w ^ n * exp u / (exp u + eta p) ^ 2) with (aT ^ n * sqrt w ^ n * (exp u / (exp u + eta p) ^ 2)) by (field; exact HD).
  rewrite EX. rewrite <- (Rpower_half_pow w n Hw Hn). rewrite pow_add. set (RP := Rpower w _). field. repeat split; auto; lra.
Qed.

Lemma sub_dy_continuous aT mat eps : 0 < eps -> 0 <= mat -> continuous (sub_dy aT mat) eps.
Proof.
  intros He Hm. apply @ex_derive_continuous. unfold sub_dy. assert (H : 0 < eps * (eps + 2 * mat)) by (apply Rmult_lt_0_compat; lra).
  assert (0 < sqrt (eps * (eps + 2 * mat))) by now apply sqrt_lt_R0. auto_derive. split; [lra|]. split; [lra|exact I].
Qed.

Lemma legendre_continuous p n m aT y : 0 <= tmass p -> (tmass p = 0 -> m = 0) -> 0 < aT -> 0 < y -> continuous (legendre_integrand p n m aT) y.
Proof.
  intros HM H0 Ha Hy. apply (continuous_ext_loc _ (fun y => y ^ n * exp (sqrt (y ^ 2 + m ^ 2) / aT) / (exp (sqrt (y ^ 2 + m ^ 2) / aT) + eta p) ^ 2)).
  - assert (HT : locally y (fun b => 0 < b)) by exact (open_gt 0 y Hy). revert HT. apply filter_imp. intros b Hb. unfold legendre_integrand. rewrite cenergy_sqrt by auto. reflexivity.
  - apply @ex_derive_continuous. assert (HS : 0 < y ^ 2 + m ^ 2) by (apply Rplus_lt_le_0_compat; [now apply pow_lt|apply pow2_ge_0]).
    pose proof (occ_denominator p (sqrt (y ^ 2 + m ^ 2) / aT) ltac:(apply Rdiv_lt_0_compat; [now apply sqrt_lt_R0|auto])) as HD.
    auto_derive. cbn [pow] in *. repeat split; try lra; auto.
Qed.

(* the integrals themselves: over any range of eps the integral with weight
   e^-eps equals the momentum integral over the image of the range *)
Lemma laguerre_integral p n m aT e1 e2 : 0 <= tmass p -> (tmass p = 0 -> m = 0) -> 0 <= m -> 0 < aT -> (1 <= n)%nat -> 0 < e1 -> e1 <= e2 ->
  RInt (fun eps => aT ^ (n + 1) * exp (- (m / aT)) * (exp (- eps) * laguerre_integrand p n m aT eps)) e1 e2 =
  RInt (legendre_integrand p n m aT) (sub_y aT (m / aT) e1) (sub_y aT (m / aT) e2).
Proof.
  intros HM H0 Hm Ha Hn H1 H2. assert (Hmat : 0 <= m / aT) by (apply Rmult_le_pos; [auto|now apply Rlt_le, Rinv_0_lt_compat]).
  apply is_RInt_unique.
  apply (is_RInt_ext (fun eps => scal (sub_dy aT (m / aT) eps) (legendre_integrand p n m aT (sub_y aT (m / aT) eps)))).
  - intros eps. rewrite Rmin_left, Rmax_right by lra. intros He.
    change (@eq R (sub_dy aT (m / aT) eps * legendre_integrand p n m aT (sub_y aT (m / aT) eps)) (aT ^ (n + 1) * exp (- (m / aT)) * (exp (- eps) * laguerre_integrand p n m aT eps))).
    rewrite Rmult_comm. apply laguerre_substitution; auto. lra.
  - apply (is_RInt_comp (legendre_integrand p n m aT) (sub_y aT (m / aT)) (sub_dy aT (m / aT)) e1 e2); intros eps; rewrite Rmin_left, Rmax_right by lra; intros He.
    + apply legendre_continuous; auto. apply (sub_energy p aT m eps); auto. lra.
    + split; [apply sub_derive; lra|apply sub_dy_continuous; lra].
Qed.
