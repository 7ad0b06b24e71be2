(* C183: how far the run of C183_bracket gets. *)
From Coq Require Import Reals Lra Psatz Lia.
From Verif Require Import Base ParamsModel ParamsProofs AgeModel AgeProofs.
Open Scope R_scope.

Theorem C183_steps : forall logmode T km kdx kdy p0 (rho ent : params -> R) rho0 s0 daTs,
  params_init logmode (Val T) km kdx kdy = Ok p0 -> args_ok logmode T km kdx kdy -> 0 < rho0 -> (forall p, 0 < rho p) ->
  let q := timed_run logmode rho ent (evolve_begin logmode rho0 s0 p0) daTs in
  let n := length daTs in let r := pdx p0 / px p0 in
  px q = px p0 * (if logmode then (1 + r) ^ n else 1 + INR n * r) /\
  pa q = pa p0 * (if logmode then (1 + r) ^ n else 1 + INR n * r) /\
  paT q = paT p0 + fold_right Rplus 0 daTs /\ pa q * pT q = paT q.
Proof.
  intros logmode T km kdx kdy p0 rho ent rho0 s0 daTs HI HA H0 Hpos q n r.
  destruct (init_fwd _ _ _ _ _ _ HI HA) as [HG HF].
  destruct (begin_facts logmode rho0 s0 p0 HG HF H0) as (G1 & F1 & E1 & E2 & E3 & E4 & E5 & _).
  set (p1 := evolve_begin logmode rho0 s0 p0) in *.
  assert (HX : 0 < px p0) by (pose proof HG as (Q1 & _ & Q3 & Q4 & _); rewrite Q1; apply Rmult_lt_0_compat; lra).
  assert (HR : forall l, let q := timed_run logmode rho ent p1 l in Good logmode q /\ Fwd logmode q /\ pm q = pm p0 /\
            pdx q = (if logmode then r * px q else pdx p0) /\
            px q = px p0 * (if logmode then (1 + r) ^ length l else 1 + INR (length l) * r) /\ paT q = paT p0 + fold_right Rplus 0 l).
  { induction l as [|x l IH] using rev_ind.
    - change (Good logmode p1 /\ Fwd logmode p1 /\ pm p1 = pm p0 /\ pdx p1 = (if logmode then r * px p1 else pdx p0) /\
              px p1 = px p0 * (if logmode then 1 else 1 + 0 * r) /\ paT p1 = paT p0 + 0).
      rewrite E2, E3, E4, E5. split; [exact G1|]. split; [exact F1|]. split; [reflexivity|]. split; [|split; [destruct logmode; ring | ring]].
      destruct logmode; [unfold r; field; lra | reflexivity].
    - cbn zeta in *. unfold timed_run in *. rewrite fold_left_app. cbn [fold_left]. set (p := fold_left (timed_step logmode rho ent) l p1) in *.
      destruct IH as (I1 & I2 & I3 & I4 & I5 & I6). specialize (Hpos p).
      pose proof (step_good logmode p (MakeStep x (rho p) (ent p)) I1 (conj Hpos (proj1 I2))) as [J1 J2].
      pose proof (step_fwd logmode p (MakeStep x (rho p) (ent p)) I1 I2 Hpos) as J3.
      change (timed_step logmode rho ent p x) with (pstep logmode p (MakeStep x (rho p) (ent p))).
      split; [exact J1|]. split; [exact J3|]. split; [rewrite J2; exact I3|].
      assert (EX : px (pstep logmode p (MakeStep x (rho p) (ent p))) = px p + pdx p) by reflexivity.
      assert (ED : pdx (pstep logmode p (MakeStep x (rho p) (ent p))) = (if logmode then match pdy p with Some dy => (px p + pdx p) * dy | None => pdx p end else pdx p)) by reflexivity.
      assert (EP : paT (pstep logmode p (MakeStep x (rho p) (ent p))) = paT p + x) by reflexivity.
      rewrite EX, ED, EP, app_length. cbn [length]. rewrite Nat.add_1_r. split; [|split].
      + destruct logmode; [|exact I4]. destruct I1 as (K1 & _ & K3 & K4 & K5). destruct (K5 eq_refl) as (dy & D1 & D2 & _). rewrite D1.
        assert (0 < px p) by (rewrite K1; apply Rmult_lt_0_compat; lra).
        assert (EE : dy = r) by (apply (Rmult_eq_reg_l (px p)); lra). rewrite EE. ring.
      + rewrite I4. destruct logmode; rewrite I5; [cbn [pow]; ring|]. rewrite S_INR. unfold r. field. lra.
      + rewrite I6, fold_right_app. cbn [fold_right]. assert (EF : forall m : list R, forall z, fold_right Rplus z m = fold_right Rplus 0 m + z) by (induction m as [|w m IHm]; intros z; cbn; [ring | rewrite (IHm z); ring]).
        rewrite (EF l (x + 0)). ring. }
  specialize (HR daTs). cbn zeta in HR. fold q in HR. fold n in HR. destruct HR as (I1 & I2 & I3 & I4 & I5 & I6).
  pose proof I1 as (K1 & K2 & K3 & K4 & _). pose proof HG as (Q1 & _ & Q3 & Q4 & _).
  split; [exact I5|]. split; [|split; assumption].
  apply (Rmult_eq_reg_r (pm p0)); [|lra]. rewrite <- I3 at 1. rewrite <- K1, I5, Q1. ring.
Qed.
Print Assumptions C183_steps.
Example C183_steps_case : exists p0, params_init true (Val 10) (Val 1) Absent (Val (1/10)) = Ok p0 /\ args_ok true 10 (Val 1) Absent (Val (1/10)).
Proof. exact params_example. Qed.
