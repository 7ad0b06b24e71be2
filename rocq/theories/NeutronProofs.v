(* The phase space of free neutron decay in closed form, with numerical bounds. *)
From Coq Require Import Reals Lra Psatz.
From Coquelicot Require Import Coquelicot.
From Verif Require Import Base IntegratorsModel ParamsModel EvolveModel KawanoModel Decay4Proofs.
Open Scope R_scope.

Definition beta_shape (Q b E : R) : R := (Q - E) ^ 2 * sqrt (E ^ 2 - b ^ 2) * E.
Definition ch (u : R) : R := (exp u + exp (- u)) / 2.
Definition sh (u : R) : R := (exp u - exp (- u)) / 2.
Lemma ch_sh u : ch u ^ 2 - sh u ^ 2 = 1.
Proof. unfold ch, sh. assert (E : exp u * exp (- u) = 1) by (rewrite <- exp_plus, Rplus_opp_r; apply exp_0). nra. Qed.
Lemma sh_pos u : 0 <= u -> 0 <= sh u.
Proof. intros [H|<-]; unfold sh; [|rewrite Ropp_0; lra]. assert (exp (- u) < exp u) by (apply exp_increasing; lra). lra. Qed.
Definition beta_anti (Q b u : R) : R :=
  b ^ 3 * (Q ^ 2 * sh u ^ 3 / 3 - 2 * Q * b * (sh u * ch u * (2 * ch u ^ 2 - 1) / 8 - u / 8) + b ^ 2 * (sh u ^ 3 / 3 + sh u ^ 5 / 5)).
Lemma beta_anti_derive Q b u : is_derive (beta_anti Q b) u (b ^ 3 * (ch u * sh u ^ 2 * (Q - b * ch u) ^ 2)).
Proof.
  unfold beta_anti, ch, sh. auto_derive; [trivial|]. rewrite exp_Ropp. pose proof (exp_pos u). field. lra.
Qed.
Lemma beta_continuous Q b E : continuous (beta_shape Q b) E.
Proof.
  unfold beta_shape. apply (continuous_mult (fun E => (Q - E) ^ 2 * sqrt (E ^ 2 - b ^ 2)) (fun E => E)); [|apply continuous_id].
  apply (continuous_mult (fun E => (Q - E) ^ 2) (fun E => sqrt (E ^ 2 - b ^ 2))).
  - apply (ex_derive_continuous (fun E : R => (Q - E) ^ 2)). auto_derive. trivial.
  - apply (continuous_comp (fun E : R => E ^ 2 - b ^ 2) sqrt); [|apply continuous_sqrt]. apply (ex_derive_continuous (fun E : R => E ^ 2 - b ^ 2)). auto_derive. trivial.
Qed.
Lemma beta_int Q b u : 0 < b -> 0 <= u -> is_RInt (beta_shape Q b) b (b * ch u) (beta_anti Q b u).
Proof.
  intros Hb Hu.
  assert (E0 : b * ch 0 = b) by (unfold ch; rewrite Ropp_0, exp_0; field).
  assert (HI : is_RInt (fun v => scal (b * sh v) (beta_shape Q b (b * ch v))) 0 u (RInt (beta_shape Q b) (b * ch 0) (b * ch u))).
  { apply (is_RInt_comp (beta_shape Q b) (fun v => b * ch v) (fun v => b * sh v)).
    - intros x _. apply beta_continuous.
    - intros x _. split; [unfold ch, sh; auto_derive; [trivial|field]|].
      apply (ex_derive_continuous (fun v : R => b * sh v)). unfold sh. auto_derive. trivial. }
  assert (HA : is_RInt (fun v => b ^ 3 * (ch v * sh v ^ 2 * (Q - b * ch v) ^ 2)) 0 u (beta_anti Q b u)).
  { replace (beta_anti Q b u) with (beta_anti Q b u - beta_anti Q b 0) by (unfold beta_anti, sh, ch; rewrite Ropp_0, exp_0; field).
    apply is_RInt_anti; [apply beta_anti_derive|]. intros x. apply (ex_derive_continuous (fun v : R => b ^ 3 * (ch v * sh v ^ 2 * (Q - b * ch v) ^ 2))). unfold ch, sh. auto_derive. trivial. }
  assert (HE : is_RInt (fun v => b ^ 3 * (ch v * sh v ^ 2 * (Q - b * ch v) ^ 2)) 0 u (RInt (beta_shape Q b) (b * ch 0) (b * ch u))).
  { eapply is_RInt_ext; [|exact HI]. intros x Hx. rewrite Rmin_left, Rmax_right in Hx by lra. unfold scal; cbn; unfold mult; cbn. unfold beta_shape.
    replace ((b * ch x) ^ 2 - b ^ 2) with ((b * sh x) ^ 2) by (pose proof (ch_sh x); nra).
    rewrite sqrt_pow2 by (apply Rmult_le_pos; [lra|apply sh_pos; lra]). ring. }
  rewrite E0 in HE. rewrite <- (is_RInt_unique (V := R_CompleteNormedModule) _ _ _ _ HA), (is_RInt_unique (V := R_CompleteNormedModule) _ _ _ _ HE).
  apply (RInt_correct (V := R_CompleteNormedModule)). apply (ex_RInt_continuous (V := R_CompleteNormedModule)). intros x _. apply beta_continuous.
Qed.
(* the rapidity of the most energetic electron *)
Lemma rapidity e : 1 < e -> let u := ln (e + sqrt (e ^ 2 - 1)) in 0 <= u /\ ch u = e /\ sh u = sqrt (e ^ 2 - 1).
Proof.
  intros He u. assert (HS : sqrt (e ^ 2 - 1) ^ 2 = e ^ 2 - 1) by (apply pow2_sqrt; nra). pose proof (sqrt_pos (e ^ 2 - 1)) as HP. set (s := sqrt (e ^ 2 - 1)) in *.
  assert (HX : exp u = e + s) by (apply exp_ln; lra). assert (HY : exp (- u) = e - s).
  { rewrite exp_Ropp, HX. apply (Rmult_eq_reg_l (e + s)); [|lra]. rewrite Rinv_r by lra. nra. }
  split; [|unfold ch, sh; rewrite HX, HY; split; field].
  unfold u. rewrite <- ln_1. left. apply ln_increasing; lra.
Qed.
(* the textbook function of the end-point energy *)
Definition beta_f (e s u : R) : R := s * (2 * e ^ 4 - 9 * e ^ 2 - 8) / 60 + e * u / 4.
Lemma beta_value b e : 0 < b -> 1 < e -> let s := sqrt (e ^ 2 - 1) in
  is_RInt (beta_shape (b * e) b) b (b * e) (b ^ 5 * beta_f e s (ln (e + s))).
Proof.
  intros Hb He s. destruct (rapidity e He) as (Hu & Hc & Hs). fold s in Hu, Hc, Hs. pose proof (beta_int (b * e) b _ Hb Hu) as H. rewrite Hc in H.
  replace (b ^ 5 * beta_f e s (ln (e + s))) with (beta_anti (b * e) b (ln (e + s))); [exact H|]. unfold beta_anti, beta_f. rewrite Hc, Hs. fold s.
  assert (HS : s ^ 2 = e ^ 2 - 1) by (apply pow2_sqrt; nra).
  replace (s ^ 5) with (s * (e ^ 2 - 1) ^ 2) by (rewrite <- HS; ring). replace (s ^ 3) with (s * (e ^ 2 - 1)) by (rewrite <- HS; ring). field.
Qed.

(* bounds on the exponential *)
Lemma exp_taylor2 t : 0 <= t -> 1 + t + t ^ 2 / 2 <= exp t.
Proof.
  intros Ht. assert (H : forall x, 0 <= x -> (exp 0 - 1 - 0 - 0 ^ 2 / 2) <= exp x - 1 - x - x ^ 2 / 2).
  { intros x [Hx|<-]; [|lra]. destruct (MVT_gen (fun y => exp y - 1 - y - y ^ 2 / 2) 0 x (fun y => exp y - 1 - y)) as (c & Hc & E).
    - intros y _. auto_derive; [trivial|field].
    - intros y _. apply continuity_pt_filterlim, (ex_derive_continuous (fun y : R => exp y - 1 - y - y ^ 2 / 2)). auto_derive. trivial.
    - rewrite Rmin_left, Rmax_right in Hc by lra. cbv beta in E. assert (0 <= exp c - 1 - c) by (pose proof (exp_ineq1_le c); lra). nra. }
  specialize (H t Ht). rewrite exp_0 in H. lra.
Qed.
Lemma exp_pade t : 0 <= t < 1 -> exp t <= (2 + t) / (2 - t).
Proof.
  intros Ht. assert (H : forall x, 0 <= x < 1 -> (2 + 0) - (2 - 0) * exp 0 <= (2 + x) - (2 - x) * exp x).
  { intros x [[Hx|<-] Hx1]; [|lra]. destruct (MVT_gen (fun y => (2 + y) - (2 - y) * exp y) 0 x (fun y => 1 - (1 - y) * exp y)) as (c & Hc & E).
    - intros y _. auto_derive; [trivial|ring].
    - intros y _. apply continuity_pt_filterlim, (ex_derive_continuous (fun y : R => (2 + y) - (2 - y) * exp y)). auto_derive. trivial.
    - rewrite Rmin_left, Rmax_right in Hc by lra. cbv beta in E.
      assert (HE : (1 - c) * exp c <= 1). { pose proof (exp_ineq1_le (- c)). pose proof (exp_pos c). assert (P : exp c * exp (- c) = 1) by (rewrite <- exp_plus, Rplus_opp_r; apply exp_0). nra. }
      nra. }
  specialize (H t Ht). rewrite exp_0 in H. apply (Rmult_le_reg_r (2 - t)); [lra|]. unfold Rdiv. rewrite Rmult_assoc, Rinv_l by lra. lra.
Qed.
Lemma exp_twice_le t a b : exp t <= a -> a * a <= b -> exp (2 * t) <= b.
Proof. intros H1 H2. replace (2 * t) with (t + t) by ring. rewrite exp_plus. pose proof (exp_pos t). nra. Qed.
Lemma exp_twice_ge t a b : 0 <= a -> a <= exp t -> b <= a * a -> b <= exp (2 * t).
Proof. intros H0 H1 H2. replace (2 * t) with (t + t) by ring. rewrite exp_plus. nra. Qed.
Lemma exp_upper : exp (1580219 / 10 ^ 6) <= 485602075087 / 10 ^ 11.
Proof.
  set (t := 1580219 / 10 ^ 6 / 1024).
  assert (H0 : exp t <= 100154437425 / 10 ^ 11) by (refine (Rle_trans _ _ _ (exp_pade t _) _); unfold t; lra).
  apply exp_twice_le with (b := 100309113360 / 10 ^ 11) in H0; [|lra].
  rename H0 into H1.
  apply exp_twice_le with (b := 100619182231 / 10 ^ 11) in H1; [|lra].
  rename H1 into H2.
  apply exp_twice_le with (b := 101242198329 / 10 ^ 11) in H2; [|lra].
  rename H2 into H3.
  apply exp_twice_le with (b := 102499827225 / 10 ^ 11) in H3; [|lra].
  rename H3 into H4.
  apply exp_twice_le with (b := 105062145812 / 10 ^ 11) in H4; [|lra].
  rename H4 into H5.
  apply exp_twice_le with (b := 110380544827 / 10 ^ 11) in H5; [|lra].
  rename H5 into H6.
  apply exp_twice_le with (b := 121838646764 / 10 ^ 11) in H6; [|lra].
  rename H6 into H7.
  apply exp_twice_le with (b := 148446558453 / 10 ^ 11) in H7; [|lra].
  rename H7 into H8.
  apply exp_twice_le with (b := 220363807166 / 10 ^ 11) in H8; [|lra].
  rename H8 into H9.
  apply exp_twice_le with (b := 485602075087 / 10 ^ 11) in H9; [|lra].
  rename H9 into H10.
  replace (1580219 / 10 ^ 6) with (2 * (2 * (2 * (2 * (2 * (2 * (2 * (2 * (2 * (2 * t)))))))))) by (unfold t; field). exact H10.
Qed.
Lemma exp_lower : 485605005555 / 10 ^ 11 <= exp (1580226 / 10 ^ 6).
Proof.
  set (t := 1580226 / 10 ^ 6 / 1024).
  assert (H0 : 100154438016 / 10 ^ 11 <= exp t) by (refine (Rle_trans _ _ _ _ (exp_taylor2 t _)); unfold t; lra).
  apply exp_twice_ge with (b := 100309114543 / 10 ^ 11) in H0; [|lra|lra].
  rename H0 into H1.
  apply exp_twice_ge with (b := 100619184604 / 10 ^ 11) in H1; [|lra|lra].
  rename H1 into H2.
  apply exp_twice_ge with (b := 101242203103 / 10 ^ 11) in H2; [|lra|lra].
  rename H2 into H3.
  apply exp_twice_ge with (b := 102499836891 / 10 ^ 11) in H3; [|lra|lra].
  rename H3 into H4.
  apply exp_twice_ge with (b := 105062165626 / 10 ^ 11) in H4; [|lra|lra].
  rename H4 into H5.
  apply exp_twice_ge with (b := 110380586460 / 10 ^ 11) in H5; [|lra|lra].
  rename H5 into H6.
  apply exp_twice_ge with (b := 121838738672 / 10 ^ 11) in H6; [|lra|lra].
  rename H6 into H7.
  apply exp_twice_ge with (b := 148446782411 / 10 ^ 11) in H7; [|lra|lra].
  rename H7 into H8.
  apply exp_twice_ge with (b := 220364472081 / 10 ^ 11) in H8; [|lra|lra].
  rename H8 into H9.
  apply exp_twice_ge with (b := 485605005555 / 10 ^ 11) in H9; [|lra|lra].
  rename H9 into H10.
  replace (1580226 / 10 ^ 6) with (2 * (2 * (2 * (2 * (2 * (2 * (2 * (2 * (2 * (2 * t)))))))))) by (unfold t; field). exact H10.
Qed.

Lemma MeV_pos' : 0 < MeV.
Proof. unfold MeV, eV. lra. Qed.
(* the neutron: end point q / m_e *)
Definition endpoint : R := qnp / m_e.
Lemma endpoint_val : endpoint = 1293332 / 511000.
Proof. unfold endpoint, qnp, m_e. pose proof MeV_pos'. field. lra. Qed.
Lemma endpoint_sqrt : 232505308 / 10 ^ 8 <= sqrt (endpoint ^ 2 - 1) <= 232505310 / 10 ^ 8.
Proof.
  rewrite endpoint_val. split.
  - rewrite <- (sqrt_pow2 (232505308 / 10 ^ 8)) by lra. apply sqrt_le_1_alt. lra.
  - rewrite <- (sqrt_pow2 (232505310 / 10 ^ 8)) by lra. apply sqrt_le_1_alt. lra.
Qed.
Lemma endpoint_ln : 1580219 / 10 ^ 6 <= ln (endpoint + sqrt (endpoint ^ 2 - 1)) <= 1580226 / 10 ^ 6.
Proof.
  pose proof endpoint_sqrt as [H1 H2]. pose proof endpoint_val as HE. split.
  - rewrite <- (ln_exp (1580219 / 10 ^ 6)). apply ln_le; [apply exp_pos|]. pose proof exp_upper. lra.
  - rewrite <- (ln_exp (1580226 / 10 ^ 6)). apply ln_le; [lra|]. pose proof exp_lower. lra.
Qed.
Lemma beta_f_bounds : Rabs (rate_normalization * m_e ^ 5 * beta_f endpoint (sqrt (endpoint ^ 2 - 1)) (ln (endpoint + sqrt (endpoint ^ 2 - 1))) - 1) < 1 / 10 ^ 5.
Proof.
  pose proof endpoint_sqrt as HS. pose proof endpoint_ln as HL. rewrite endpoint_val in *.
  set (s := sqrt _) in *. set (u := ln _) in *. unfold beta_f.
  replace (rate_normalization * m_e ^ 5) with (175426 / 10000 * (511 / 1000) ^ 5) by (unfold rate_normalization, m_e; pose proof MeV_pos'; field; lra).
  apply Rabs_def1; lra.
Qed.
