(* C176: further statements about the monitors, added after mutation tests *)
From Coq Require Import Reals Lra.
From Verif Require Import Base ThermoModel MonitorModel MonitorProps.
Open Scope R_scope.

(* what the monitors take for the equilibrium distribution: the one with detailed
   balance, f = exp(-E/T) (1 - f) for fermions and exp(-E/T) (1 + f) for bosons,
   at the energy of a particle with the physical momentum y/a and at T = aT/a *)
Theorem C176_detailed_balance p a aT grid i y f : 0 <= tmass p -> 0 < a -> 0 < aT -> Forall (Rlt 0) grid ->
  nth_error grid i = Some y -> nth_error (feq p a aT grid) i = Some f ->
  f = exp (- (sqrt ((y / a) ^ 2 + tmass p ^ 2) / (aT / a))) * (if fermion p then 1 - f else 1 + f).
Proof.
  intros Hm Ha HT HG Hy Hf. assert (Y : 0 < y) by exact (proj1 (Forall_forall _ _) HG y (nth_error_In _ _ Hy)).
  unfold feq in Hf. rewrite (map_nth_error _ _ _ Hy) in Hf. injection Hf as Hf.
  assert (EE : sqrt ((y / a) ^ 2 + tmass p ^ 2) / (aT / a) = cenergy p y (tmass p * a) / aT).
  { assert (EC : cenergy p y (tmass p * a) = sqrt (y ^ 2 + (tmass p * a) ^ 2)).
    { unfold cenergy. destruct (Rlt_dec 0 (tmass p)); [reflexivity|]. assert (tmass p = 0) as -> by lra.
      replace (y ^ 2 + (0 * a) ^ 2) with (y ^ 2) by ring. rewrite sqrt_pow2 by lra. apply Rabs_right. lra. }
    rewrite EC. replace (y ^ 2 + (tmass p * a) ^ 2) with (a ^ 2 * ((y / a) ^ 2 + tmass p ^ 2)) by (field; lra).
    rewrite sqrt_mult_alt by (apply pow2_ge_0). rewrite sqrt_pow2 by lra. field. lra. }
  rewrite EE. set (x := cenergy p y (tmass p * a) / aT) in *.
  assert (P : 0 < exp x + eta p).
  { assert (X : 0 < x).
    { unfold x. apply Rdiv_lt_0_compat; [|exact HT]. unfold cenergy. destruct (Rlt_dec 0 (tmass p)).
      - apply sqrt_lt_R0. assert (0 < y ^ 2) by (apply pow_lt; lra). pose proof (pow2_ge_0 (tmass p * a)). lra.
      - rewrite Rabs_right; lra. }
    pose proof (exp_ineq1_le x). unfold eta. destruct (fermion p); lra. }
  pose proof (exp_pos x). rewrite exp_Ropp. rewrite <- Hf. unfold eta in *. destruct (fermion p); field; split; lra.
Qed.
Print Assumptions C176_detailed_balance.

(* the comoving densities of radiation are those of radiation at the temperature
   a T, in MeV; of anything else, they do not depend on the unit of energy, they
   are the densities themselves at a = 1 in units of MeV, and grow as the fourth
   and the third power of a *)
Theorem C176_comoving_values p T rho n a MeV k : 0 < a -> 0 < MeV -> 0 < k ->
  comoving (rad_energy_density p T) (rad_density p T) a MeV = (rad_energy_density p (a * T / MeV), rad_density p (a * T / MeV)) /\
  comoving (k ^ 4 * rho) (k ^ 3 * n) a (k * MeV) = comoving rho n a MeV /\
  comoving rho n 1 1 = (rho, n) /\
  comoving rho n (k * a) MeV = (k ^ 4 * fst (comoving rho n a MeV), k ^ 3 * snd (comoving rho n a MeV)).
Proof.
  intros Ha HM Hk. pose proof PI_RGT_0. unfold comoving. cbn [fst snd]. repeat split; f_equal; try (field; repeat split; lra).
  - unfold rad_energy_density. destruct (fermion p); field; lra.
  - unfold rad_density. destruct (fermion p); field; lra.
Qed.
Print Assumptions C176_comoving_values.

Example C176_comoving_case :
  comoving 16 8 2 2 = (16, 8) /\
  (exists f, nth_error (feq (mkTpart 2 3 true) 1 5 [4]) 0 = Some f /\ f = exp (- 1) * (1 - f)).
Proof.
  split; [unfold comoving; f_equal; field|]. eexists. split; [reflexivity|].
  assert (HG : Forall (Rlt 0) [4]) by (constructor; [lra|constructor]).
  pose proof (C176_detailed_balance (mkTpart 2 3 true) 1 5 [4] 0 4 _ ltac:(cbn; lra) Rlt_0_1 ltac:(lra) HG eq_refl eq_refl) as D.
  cbn [fermion tmass] in D. rewrite D at 1. f_equal. f_equal. replace ((4 / 1) ^ 2 + 3 ^ 2) with (5 ^ 2) by field.
  rewrite sqrt_pow2 by lra. field.
Qed.
