(* C175: the closed forms used for radiation against the integrals they stand
   for *)
From Coq Require Import Reals Lra Psatz Lia.
From Coquelicot Require Import Coquelicot.
From Verif Require Import Base ParticleModel ThermoModel ThermoProofs RadiationProofs.
Open Scope R_scope.

Lemma rad_energy_form p T : rad_energy_density p T = dof p / 2 / PI ^ 2 * T ^ 4 * ((if fermion p then 7 / 120 else 1 / 15) * PI ^ 4).
Proof. unfold rad_energy_density. pose proof PI_RGT_0. destruct (fermion p); field; lra. Qed.
Lemma base3_bounds b X : 20 <= X ->
  Rabs (base3 b X - (if b then 7 / 120 else 1 / 15) * PI ^ 4) <= 199 / 1000000 * ((if b then 7 / 120 else 1 / 15) * PI ^ 4).
Proof.
  intros HX. pose proof pi4. apply Rabs_le. destruct b; cbn [base3].
  - pose proof (fermi3 X HX) as F. change (RInt (fun x => x ^ 3 * (1 / (exp x + 1))) 0 X) with (RInt (fermi 3) 0 X) in F. lra.
  - pose proof (bose3 X HX). lra.
Qed.
Lemma Rabs_scale c a b e : 0 <= c -> Rabs (a - b) <= e -> Rabs (c * a - c * b) <= c * e.
Proof. intros Hc H. rewrite <- Rmult_minus_distr_l, Rabs_mult, (Rabs_right c) by lra. apply Rmult_le_compat_l; assumption. Qed.
Lemma weight_nonneg p T n : 0 <= dof p -> 0 < T -> 0 <= dof p / 2 / PI ^ 2 * T ^ n.
Proof.
  intros Hd HT. apply Rmult_le_pos; [|apply pow_le; lra]. apply Rmult_le_pos; [lra|].
  left. apply Rinv_0_lt_compat. apply PI2_pos.
Qed.

(* The energy density: the closed form of the radiation regime is the integral
   of the intermediate regime up to the neglected mass and two parts in ten
   thousand, for every cut-off from 20 T on (the code's is 20 T). *)
Theorem C175_energy p T X : 0 <= tmass p <= T -> 0 < T -> 0 <= dof p -> 20 <= X ->
  exists I, is_RInt (energy_integrand p T) 0 (X * T) I /\
    Rabs (I - rad_energy_density p T) <= (tmass p / T + 4 / 10000) * rad_energy_density p T.
Proof.
  intros [Hm HM] HT Hd HX. assert (Hmu : 0 <= tmass p / T <= 1).
  { split; [apply Rmult_le_pos; [lra|left; apply Rinv_0_lt_compat; lra]|]. apply -> Rdiv_le_1; lra. }
  exists (dof p / 2 / PI ^ 2 * T ^ 3 * T * RInt (emass (fermion p) (tmass p / T)) 0 X).
  split; [apply energy_integral; lra|]. rewrite rad_energy_form.
  pose proof (emass_bounds (fermion p) (tmass p / T) X ltac:(lra) HX) as E.
  pose proof (base3_bounds (fermion p) X HX) as B. apply Rabs_le_between in B.
  set (mu := tmass p / T) in *. set (q := (if fermion p then 7 / 120 else 1 / 15) * PI ^ 4) in *.
  assert (Hq : 0 < q) by (unfold q; pose proof pi4; destruct (fermion p); lra).
  replace (dof p / 2 / PI ^ 2 * T ^ 3 * T) with (dof p / 2 / PI ^ 2 * T ^ 4) by ring.
  replace ((mu + 4 / 10000) * (dof p / 2 / PI ^ 2 * T ^ 4 * q)) with (dof p / 2 / PI ^ 2 * T ^ 4 * ((mu + 4 / 10000) * q)) by ring.
  apply Rabs_scale; [apply weight_nonneg; lra|]. apply Rabs_le. nra.
Qed.
Print Assumptions C175_energy.

(* For massless particles: energy, pressure and heat capacity *)
Theorem C175_massless p T X : tmass p = 0 -> 0 < T -> 0 <= dof p -> 20 <= X ->
  (exists I, is_RInt (energy_integrand p T) 0 (X * T) I /\
     Rabs (I - rad_energy_density p T) <= 2 / 10000 * rad_energy_density p T) /\
  (exists I, is_RInt (pressure_integrand p T) 0 (X * T) I /\
     Rabs (I - rad_pressure p T) <= 2 / 10000 * rad_pressure p T) /\
  (exists I, is_RInt (legendre_integrand p 4 0 T) 0 (X * T) I /\
     forall I2, Rabs (int_denominator I2 (dof p / 2 / PI ^ 2 * I) 0 T - rad_denominator p T) <= 2 / 10000 * rad_denominator p T).
Proof.
  intros Hm HT Hd HX. pose proof (base3_bounds (fermion p) X HX) as B.
  pose proof (energy_integral p T X ltac:(lra) HT ltac:(lra)) as E.
  rewrite Hm in E. replace (0 / T) with 0 in E by (unfold Rdiv; ring).
  pose proof (emass_bounds (fermion p) 0 X ltac:(lra) HX) as E0.
  replace (RInt (emass (fermion p) 0) 0 X) with (base3 (fermion p) X) in E by lra.
  assert (K : Rabs (dof p / 2 / PI ^ 2 * T ^ 3 * T * base3 (fermion p) X - rad_energy_density p T) <= 2 / 10000 * rad_energy_density p T).
  { rewrite rad_energy_form. set (q := (if fermion p then 7 / 120 else 1 / 15) * PI ^ 4) in *.
    assert (Hq : 0 < q) by (unfold q; pose proof pi4; destruct (fermion p); lra).
    replace (dof p / 2 / PI ^ 2 * T ^ 3 * T) with (dof p / 2 / PI ^ 2 * T ^ 4) by ring.
    replace (2 / 10000 * (dof p / 2 / PI ^ 2 * T ^ 4 * q)) with (dof p / 2 / PI ^ 2 * T ^ 4 * (2 / 10000 * q)) by ring.
    apply Rabs_scale; [apply weight_nonneg; lra|]. lra. }
  split; [|split].
  - eexists. split; [exact E|exact K].
  - exists (/ 3 * (dof p / 2 / PI ^ 2 * T ^ 3 * T * base3 (fermion p) X)). split.
    + pose proof (is_RInt_scal _ 0 (X * T) (/ 3) _ E) as P. eapply is_RInt_ext; [|exact P].
      assert (0 <= X * T) by nra. rewrite Rmin_left, Rmax_right by lra. intros k [Hk _].
      change (@eq R (/ 3 * energy_integrand p T k) (pressure_integrand p T k)).
      rewrite energy_int_eq. pose proof (pressure_int_eq p T k Hk) as Q.
      assert (Ek : energy p k = k) by (unfold energy; rewrite Hm; destruct (Rlt_dec 0 0); [lra|apply Rabs_right; lra]).
      rewrite Ek in Q |- *. replace (k ^ 2 / k) with k in Q by (field; lra). lra.
    + unfold rad_pressure. replace (1 * rad_energy_density p T / 3) with (/ 3 * rad_energy_density p T) by field.
      replace (2 / 10000 * (/ 3 * rad_energy_density p T)) with (/ 3 * (2 / 10000 * rad_energy_density p T)) by ring.
      apply Rabs_scale; [lra|exact K].
  - destruct (heat_integral (fermion p) X HX) as (b & HI & Hb).
    exists (T ^ 4 * T * (4 * base3 (fermion p) X - b)). split.
    + apply (RInt_scaled _ (heat (fermion p))); [exact HT|lra|exact HI|]. intros x Hx. unfold legendre_integrand, cenergy.
      rewrite Hm. destruct (Rlt_dec 0 0) as [L|_]; [lra|]. rewrite Rabs_right by nra.
      replace (T * x / T) with x by (field; lra). rewrite eta_sgn. unfold heat. rewrite Rpow_mult_distr. unfold Rdiv. ring.
    + intros I2. unfold int_denominator.
      replace ((dof p / 2 / PI ^ 2 * (T ^ 4 * T * (4 * base3 (fermion p) X - b)) + 0 ^ 2 * I2) / T ^ 2)
        with (dof p / 2 / PI ^ 2 * T ^ 3 * (4 * base3 (fermion p) X - b)) by (pose proof PI_RGT_0; field; lra).
      set (q := (if fermion p then 7 / 120 else 1 / 15) * PI ^ 4) in *.
      assert (Hq : 56 / 10 < q) by (unfold q; pose proof pi4; destruct (fermion p); lra).
      replace (rad_denominator p T) with (dof p / 2 / PI ^ 2 * T ^ 3 * (4 * q)).
      2:{ unfold rad_denominator, q. pose proof PI_RGT_0. destruct (fermion p); field; lra. }
      replace (2 / 10000 * (dof p / 2 / PI ^ 2 * T ^ 3 * (4 * q))) with (dof p / 2 / PI ^ 2 * T ^ 3 * (2 / 10000 * (4 * q))) by ring.
      apply Rabs_scale; [apply weight_nonneg; lra|]. apply Rabs_le.
      assert (B' : - (1 / 10000) * q <= base3 (fermion p) X - q <= 199 / 1000000 * q).
      { apply Rabs_le_between in B. split; [|lra]. unfold q. pose proof pi4. destruct (fermion p); cbn [base3].
        - pose proof (fermi3 X HX) as F. change (RInt (fun x => x ^ 3 * (1 / (exp x + 1))) 0 X) with (RInt (fermi 3) 0 X) in F. lra.
        - pose proof (bose3 X HX). lra. }
      split; lra.
Qed.
Print Assumptions C175_massless.

(* The number density: the closed form writes 1.2 for zeta(3) and is too small
   by between 0.15 and 0.19 per cent; in particular it never agrees with the
   integral. *)
Theorem C175_density p T X : tmass p = 0 -> 0 < T -> 0 < dof p -> 20 <= X ->
  exists I, is_RInt (density_integrand p T) 0 (X * T) I /\
    15 / 10000 * rad_density p T <= I - rad_density p T <= 19 / 10000 * rad_density p T /\ rad_density p T < I.
Proof.
  intros Hm HT Hd HX. eexists. split; [apply (density_integral p T X Hm HT); lra|].
  assert (W : 0 < dof p / 2 / PI ^ 2 * T ^ 3).
  { apply Rmult_lt_0_compat; [|apply pow_lt; lra]. apply Rdiv_lt_0_compat; [lra|apply PI2_pos]. }
  replace (dof p / 2 / PI ^ 2 * T ^ 2 * T) with (dof p / 2 / PI ^ 2 * T ^ 3) by ring.
  replace (rad_density p T) with (dof p / 2 / PI ^ 2 * T ^ 3 * (if fermion p then 18 / 10 else 24 / 10)).
  2:{ unfold rad_density. pose proof PI_RGT_0. destruct (fermion p); field; lra. }
  set (w := dof p / 2 / PI ^ 2 * T ^ 3) in *. destruct (fermion p).
  - pose proof (fermi2 X HX) as F. change (RInt (fun x => x ^ 2 * (1 / (exp x + 1))) 0 X) with (RInt (fermi 2) 0 X) in F. nra.
  - pose proof (bose2 X HX). nra.
Qed.
Print Assumptions C175_density.
(* so the claim that the closed form is the integral over the distribution is
   false of the code's number density, at every temperature *)
Theorem C175_density_refuted :
  ~ (forall p T (I : R), tmass p = 0 -> 0 < T -> 0 < dof p -> is_RInt (density_integrand p T) 0 (20 * T) I ->
       Rabs (I - rad_density p T) <= 1 / 1000 * rad_density p T).
Proof.
  intros H. destruct (C175_density (mkTpart 2 0 false) 1 20 eq_refl ltac:(lra) ltac:(cbn; lra) ltac:(lra)) as (I & HI & B & C).
  specialize (H (mkTpart 2 0 false) 1 I eq_refl ltac:(lra) ltac:(cbn; lra) HI). apply Rabs_le_between in H.
  assert (0 < rad_density (mkTpart 2 0 false) 1).
  { unfold rad_density. cbn [fermion dof]. apply Rmult_lt_0_compat; [|lra]. apply Rdiv_lt_0_compat; [lra|apply PI2_pos]. }
  lra.
Qed.
Print Assumptions C175_density_refuted.

(* The factors 7/8 and 3/4 of the closed forms, exactly: the integral of a
   fermion up to K is that of a boson up to K less 1/8 (energy) or 1/4 (number)
   of that up to 2 K. *)
Theorem C175_statistics p q T K Ib Ib2 : tmass p = 0 -> tmass q = 0 -> dof p = dof q -> fermion p = true -> fermion q = false ->
  0 < T -> 0 <= K ->
  (is_RInt (energy_integrand q T) 0 K Ib -> is_RInt (energy_integrand q T) 0 (2 * K) Ib2 ->
     is_RInt (energy_integrand p T) 0 K (Ib - 1 / 8 * Ib2)) /\
  (is_RInt (density_integrand q T) 0 K Ib -> is_RInt (density_integrand q T) 0 (2 * K) Ib2 ->
     is_RInt (density_integrand p T) 0 K (Ib - 1 / 4 * Ib2)) /\
  ex_RInt (energy_integrand q T) 0 K /\ ex_RInt (density_integrand q T) 0 K.
Proof.
  intros Hp Hq Hd Fp Fq HT HK. assert (HX : 0 <= K / T) by (apply Rmult_le_pos; [lra|left; apply Rinv_0_lt_compat; lra]).
  assert (EK : K = K / T * T) by (field; lra). assert (EK2 : 2 * K = 2 * (K / T) * T) by (field; lra).
  assert (EM : forall b X, 0 <= X -> RInt (emass b 0) 0 X = RInt (if b then fermi 3 else bose 3) 0 X).
  { intros b X H. apply RInt_ext. rewrite Rmin_left, Rmax_right by exact H. intros x [Hx _]. unfold emass. rewrite en0 by lra.
    destruct b; [change (@eq R (x ^ 2 * (x * (1 / (exp x + 1)))) (x ^ 3 * (1 / (exp x + 1))))
                |change (@eq R (x ^ 2 * (x * (1 / (exp x + -1)))) (x ^ 3 * (1 / (exp x + -1))))]; ring. }
  assert (Z : 0 / T = 0) by (unfold Rdiv; ring).
  assert (EE : forall r X, tmass r = 0 -> 0 <= X ->
     is_RInt (energy_integrand r T) 0 (X * T) (dof r / 2 / PI ^ 2 * T ^ 3 * T * RInt (if fermion r then fermi 3 else bose 3) 0 X)).
  { intros r X Hr H. pose proof (energy_integral r T X ltac:(lra) HT H) as E. rewrite Hr, Z, EM in E by exact H. exact E. }
  split; [|split; [|split]].
  - intros A B. rewrite EK in A |- *. rewrite EK2 in B.
    apply (is_RInt_unique (V := R_CompleteNormedModule)) in A. rewrite (is_RInt_unique _ _ _ _ (EE q _ Hq HX)) in A.
    apply (is_RInt_unique (V := R_CompleteNormedModule)) in B. rewrite (is_RInt_unique _ _ _ _ (EE q (2 * (K / T)) Hq ltac:(lra))) in B.
    pose proof (EE p _ Hp HX) as P. rewrite Fp in P. rewrite Fq in A, B. rewrite (duplication 1 (K / T) HX) in P.
    replace (Ib - 1 / 8 * Ib2)
      with (dof p / 2 / PI ^ 2 * T ^ 3 * T * (RInt (bose 3) 0 (K / T) - (1 / 2) ^ 3 * RInt (bose 3) 0 (2 * (K / T))));
      [exact P|]. rewrite <- A, <- B, Hd. field. pose proof PI_RGT_0. lra.
  - intros A B. rewrite EK in A |- *. rewrite EK2 in B.
    apply (is_RInt_unique (V := R_CompleteNormedModule)) in A. rewrite (is_RInt_unique _ _ _ _ (density_integral q T _ Hq HT HX)) in A.
    apply (is_RInt_unique (V := R_CompleteNormedModule)) in B. rewrite (is_RInt_unique _ _ _ _ (density_integral q T (2 * (K / T)) Hq HT ltac:(lra))) in B.
    pose proof (density_integral p T _ Hp HT HX) as P. rewrite Fp in P. rewrite Fq in A, B. rewrite (duplication 0 (K / T) HX) in P.
    replace (Ib - 1 / 4 * Ib2)
      with (dof p / 2 / PI ^ 2 * T ^ 2 * T * (RInt (bose 2) 0 (K / T) - (1 / 2) ^ 2 * RInt (bose 2) 0 (2 * (K / T))));
      [exact P|]. rewrite <- A, <- B, Hd. field. pose proof PI_RGT_0. lra.
  - rewrite EK. eexists. apply (EE q _ Hq HX).
  - rewrite EK. eexists. apply (density_integral q T _ Hq HT HX).
Qed.
Print Assumptions C175_statistics.

(* The switch: a particle that is treated as radiation with the switching
   factor F >= 1 has, in the exact integral, the energy density of the closed
   form up to 1/F and four parts in ten thousand. *)
Theorem C175_switch F c s dofs X : 1 <= F -> 0 <= cmass c -> 0 < sT s -> 0 <= dofs -> 20 <= X ->
  regime_of F c s = RADIATION ->
  exists I, is_RInt (energy_integrand (mkTpart dofs (cmass c) (if Req_EM_T (ceta c) 1 then true else false)) (sT s)) 0 (X * sT s) I /\
    let rho := rad_energy_density (mkTpart dofs (cmass c) (if Req_EM_T (ceta c) 1 then true else false)) (sT s) in
    Rabs (I - rho) <= (1 / F + 4 / 10000) * rho.
Proof.
  intros HF Hm HT Hd HX HR. set (p := mkTpart dofs (cmass c) (if Req_EM_T (ceta c) 1 then true else false)).
  assert (L : cmass c * F < sT s).
  { unfold regime_of in HR. destruct (negb _); [discriminate|]. destruct (Rlt_dec (cmass c * F) (sT s)); [assumption|].
    destruct (Rlt_dec _ _); discriminate. }
  assert (tmass p <= sT s) by (cbn [tmass p]; nra).
  destruct (C175_energy p (sT s) X (conj Hm H) HT Hd HX) as (I & HI & B). exists I. split; [exact HI|]. cbv zeta.
  eapply Rle_trans; [exact B|]. apply Rmult_le_compat_r.
  - rewrite rad_energy_form. apply Rmult_le_pos; [apply weight_nonneg; [exact Hd|exact HT]|]. pose proof pi4. destruct (fermion p); lra.
  - apply Rplus_le_compat_r. change (tmass p) with (cmass c). apply Rmult_le_reg_r with (sT s * F); [nra|].
    replace (cmass c / sT s * (sT s * F)) with (cmass c * F) by (field; lra).
    replace (1 / F * (sT s * F)) with (sT s) by (field; lra). lra.
Qed.
Print Assumptions C175_switch.

(* photons and electrons at T = 1 *)
Example C175_example :
  (exists I, is_RInt (energy_integrand (mkTpart 2 0 false) 1) 0 (20 * 1) I /\ 657 / 1000 < I < 659 / 1000) /\
  (exists I, is_RInt (energy_integrand (mkTpart 4 (1 / 1000) true) 1) 0 (20 * 1) I /\ 114 / 100 < I < 117 / 100) /\
  (exists I, is_RInt (density_integrand (mkTpart 2 0 false) 1) 0 (20 * 1) I /\ 2433 / 10000 < I < 2439 / 10000).
Proof.
  pose proof WidthProofs.PI_bounds as [P1 P2]. assert (PP : 98690 / 10000 <= PI ^ 2 <= 98697 / 10000) by nra.
  split; [|split].
  - destruct (C175_energy (mkTpart 2 0 false) 1 20 ltac:(cbn; lra) ltac:(lra) ltac:(cbn; lra) ltac:(lra)) as (I & HI & B).
    exists I. split; [exact HI|]. apply Rabs_le_between in B. unfold rad_energy_density in B. cbn [fermion dof tmass] in B. rewrite pow1 in B. nra.
  - destruct (C175_energy (mkTpart 4 (1 / 1000) true) 1 20 ltac:(cbn; lra) ltac:(lra) ltac:(cbn; lra) ltac:(lra)) as (I & HI & B).
    exists I. split; [exact HI|]. apply Rabs_le_between in B. unfold rad_energy_density in B. cbn [fermion dof tmass] in B. rewrite pow1 in B. nra.
  - destruct (C175_density (mkTpart 2 0 false) 1 20 eq_refl ltac:(lra) ltac:(cbn; lra) ltac:(lra)) as (I & HI & B & _).
    exists I. split; [exact HI|]. unfold rad_density in B. cbn [fermion dof] in B.
    assert (Q : 2431 / 10000 <= 1 ^ 3 * 2 / PI ^ 2 * (12 / 10) <= 2432 / 10000).
    { split; apply Rmult_le_reg_r with (PI ^ 2); try lra;
      replace (1 ^ 3 * 2 / PI ^ 2 * (12 / 10) * PI ^ 2) with (24 / 10) by (field; lra); lra. }
    lra.
Qed.
