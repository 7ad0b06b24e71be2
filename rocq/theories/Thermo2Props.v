(* The Gauss-Laguerre version of the equilibrium integrals as a whole (C85), the
   number density of radiation (C81), a universe without particles (C27). *)
From Coq Require Import Reals Lra Psatz.
From Coquelicot Require Import Coquelicot.
From Verif Require Import Base IntegratorsModel IntegratorsProofs ParamsModel ParamsProofs ThermoModel.
From Verif Require Import ThermoProofs ThermoProps.
Open Scope R_scope.

(* ---------- C85 ---------- *)
(* A rule with nodes eps and weights w for the weight exp(-eps), carried over
   to the momentum y(eps) = aT sqrt(eps (eps + 2 m/aT)): sum of
   w exp(eps) f(y(eps)) y'(eps). With it, the integral of the Gauss-Legendre
   branch is exactly the result of the Gauss-Laguerre branch. *)
Definition carried_over (q : rule) (m aT : R) (f : R -> R) : R :=
  rule_sum q (fun eps => exp eps * (f (aT * sqrt (eps * (eps + 2 * (m / aT)))) * Derive (fun e => aT * sqrt (e * (e + 2 * (m / aT)))) eps)).
Theorem C85_branches_agree : forall q p n m aT, Forall (fun nw => 0 < fst nw) q -> 0 <= tmass p -> (tmass p = 0 -> m = 0) -> 0 <= m -> 0 < aT -> (1 <= n)%nat ->
  Int_laguerre q p n m aT = Int_legendre (carried_over q m aT) p n m aT.
Proof.
  intros q p n m aT HQ HM H0 Hm Ha Hn. unfold Int_laguerre, Int_legendre, carried_over.
  rewrite (Rmult_assoc (_ * _)), Rmult_assoc. apply f_equal. rewrite <- Rmult_assoc, <- rule_sum_scal.
  assert (E : forall q, Forall (fun nw => 0 < fst nw) q -> forall f g, (forall x, 0 < x -> f x = g x) -> rule_sum q f = rule_sum q g).
  { clear. induction q as [|[x w] q IH]; intros HF f g HE; [reflexivity|]. inversion HF; subst. rewrite !rule_sum_cons, (IH H2 f g HE), HE by auto. reflexivity. }
  apply (E q HQ). intros eps He. destruct (C85_substitution p n m aT eps HM H0 Hm Ha He Hn) as (y & dy & _ & _ & D & -> & S).
  assert (DU : Derive (fun e : R => aT * sqrt (e * (e + 2 * (m / aT)))) eps = dy) by (apply is_derive_unique; exact D).
  rewrite DU, S. replace (exp eps * (aT ^ (n + 1) * exp (- (m / aT)) * (exp (- eps) * laguerre_integrand p n m aT eps))) with ((exp eps * exp (- eps)) * (aT ^ (n + 1) * exp (- (m / aT)) * laguerre_integrand p n m aT eps)) by ring.
  rewrite <- exp_plus. replace (eps + - eps) with 0 by ring. rewrite exp_0. ring.
Qed.
Print Assumptions C85_branches_agree.
Example C85_branches_case : Forall (fun nw => 0 < fst nw) [(1 / 2, 1); (3, 1 / 10)].
Proof. repeat (apply Forall_cons; [cbn; lra|]). apply Forall_nil. Qed.

(* ---------- C81 ---------- *)
Theorem C81_number_density : forall g m T, rad_density (mkTpart g m false) T * PI ^ 2 = 6 / 5 * g * T ^ 3 /\ rad_density (mkTpart g m true) T * PI ^ 2 = 9 / 10 * g * T ^ 3.
Proof. intros g m T. unfold rad_density. cbn [fermion dof]. split; field; apply PI_neq0. Qed.
Print Assumptions C81_number_density.

(* ---------- C27 ---------- *)
Theorem C27_no_particles : forall logmode p hist, radiation_step logmode [] (p, hist) = Raise ZeroDivisionError.
Proof. intros. unfold radiation_step, fraction. cbn [total fold_right]. destruct (Req_EM_T 0 0); [reflexivity|contradiction]. Qed.
Print Assumptions C27_no_particles.
