(* C76, C105: the numbers in the distributions that update() stores. *)
From Coq Require Import Reals List Lra.
From Verif Require Import Base EvolveModel IntegratorsModel ParticleModel ParticleProofs ParticleProps.
Import ListNotations.
Open Scope R_scope.

(* an equilibrium occupation with plasma temperature aT / a: momentum y / a,
   mass m, statistics eta *)
Definition occupation (m eta a T y : R) : R := / (exp (sqrt ((y / a) ^ 2 + m ^ 2) / T) + eta).

Lemma values : forall c e aT i y, thermal_dyn c = true -> 0 <= cmass c -> 0 < ea e -> 0 < aT -> nth_error (template c) i = Some y ->
  (ceta c = 1 \/ ceta c = -1 /\ (0 < cmass c \/ y <> 0)) ->
  nth_error (init_distribution c e aT) i = Some (Fin (occupation (cmass c) (ceta c) (ea e) (aT / ea e) y)).
Proof.
  intros c e aT i y Ht Hm Ha HT Hi Hy. unfold init_distribution. rewrite Ht, nth_error_map, Hi. cbn [option_map]. f_equal.
  assert (EN : conformal_energy c y (cmass c * ea e) = ea e * sqrt ((y / ea e) ^ 2 + cmass c ^ 2)).
  { assert (S : ea e * sqrt ((y / ea e) ^ 2 + cmass c ^ 2) = sqrt (y ^ 2 + (cmass c * ea e) ^ 2)).
    { rewrite <- (sqrt_pow2 (ea e)) at 1 by lra. rewrite <- sqrt_mult.
      - f_equal. field. lra.
      - apply pow2_ge_0.
      - pose proof (pow2_ge_0 (y / ea e)). pose proof (pow2_ge_0 (cmass c)). lra. }
    rewrite S. unfold conformal_energy. destruct (Rlt_dec 0 (cmass c)); [reflexivity|].
    replace (cmass c) with 0 by lra. replace (y ^ 2 + (0 * ea e) ^ 2) with (Rsqr y) by (unfold Rsqr; ring). now rewrite sqrt_Rsqr_abs. }
  unfold eq_value, occupation. rewrite EN. destruct (Req_EM_T aT 0); [lra|].
  set (E := sqrt ((y / ea e) ^ 2 + cmass c ^ 2)) in *.
  replace (ea e * E / aT) with (E / (aT / ea e)) by (field; lra).
  destruct (Req_EM_T _ 0) as [Z|_]; [exfalso|f_equal; unfold Rdiv; ring].
  pose proof (exp_pos (E / (aT / ea e))). destruct Hy as [Hy|[Hy H0]]; [lra|].
  assert (PE : 0 < E).
  { apply sqrt_lt_R0. pose proof (pow2_ge_0 (y / ea e)). pose proof (pow2_ge_0 (cmass c)).
    destruct H0 as [H0|H0]; [pose proof (pow_lt _ 2 H0); lra|].
    assert (y / ea e <> 0) by (intros Q; apply H0; apply (Rmult_eq_reg_r (/ ea e)); [unfold Rdiv in Q; lra|apply Rinv_neq_0_compat; lra]).
    pose proof (Rsqr_pos_lt _ H3) as H4. unfold Rsqr in H4. lra. }
  assert (PX : 0 < E / (aT / ea e)) by (apply Rdiv_lt_0_compat; [exact PE|apply Rdiv_lt_0_compat; lra]).
  pose proof (exp_increasing 0 _ PX) as PY. rewrite exp_0 in PY. lra.
Qed.

(* At the update at which a thermal species decouples it keeps the occupations
   of the plasma at that moment; while it stays in equilibrium the stored
   occupations belong to the temperature of the update before. *)
Theorem C76_frozen_values : forall dens e c s q i y, in_equilibrium c s = true -> update dens e (c, s) = Ok q -> in_equilibrium c (snd q) = false ->
  0 <= cmass c -> 0 < ea e -> 0 < eaT e -> nth_error (template c) i = Some y ->
  (ceta c = 1 \/ ceta c = -1 /\ (0 < cmass c \/ y <> 0)) ->
  nth_error (sdist (snd q)) i = Some (Fin (occupation (cmass c) (ceta c) (ea e) (eaT e / ea e) y)).
Proof.
  intros dens e c s q i y HE E HE' Hm Ha HT Hi Hy.
  destruct (C76_decoupling_update dens e c s q HE E) as (_ & _ & _ & H). destruct (H HE') as [_ ->].
  apply values; auto. unfold in_equilibrium in HE. destruct (thermal_dyn c); [reflexivity|]. destruct (Rlt_dec _ _); discriminate.
Qed.
Print Assumptions C76_frozen_values.

Theorem C105_stored_values : forall dens e c s q i y, in_equilibrium c s = true -> update dens e (c, s) = Ok q -> in_equilibrium c (snd q) = true ->
  0 <= cmass c -> 0 < ea e -> 0 < saT s -> nth_error (template c) i = Some y ->
  (ceta c = 1 \/ ceta c = -1 /\ (0 < cmass c \/ y <> 0)) ->
  nth_error (sdist (snd q)) i = Some (Fin (occupation (cmass c) (ceta c) (ea e) (saT s / ea e) y)).
Proof.
  intros dens e c s q i y HE E HE' Hm Ha HT Hi Hy. rewrite (C105_stored_distribution_lags dens e c s q HE E HE').
  apply values; auto. unfold in_equilibrium in HE. destruct (thermal_dyn c); [reflexivity|]. destruct (Rlt_dec _ _); discriminate.
Qed.
Print Assumptions C105_stored_values.

(* a massive fermion that decouples at this update *)
Example C76_frozen_case : exists q, update (fun _ _ _ => 0) (mkEnv 2 1 1 2 1 1) (c0, s0 2) = Ok q /\
  nth_error (sdist (snd q)) 1 = Some (Fin (occupation 5 1 2 1 1)).
Proof.
  assert (HE : in_equilibrium c0 (s0 2) = true) by (unfold in_equilibrium; cbn; destruct (Rlt_dec 1 2); [reflexivity|lra]).
  destruct (update (fun _ _ _ => 0) (mkEnv 2 1 1 2 1 1) (c0, s0 2)) as [q|] eqn:E; [|unfold update in E; rewrite HE in E; discriminate].
  exists q. split; [reflexivity|].
  destruct (C76_decoupling_update _ _ _ _ _ HE E) as (_ & ET & _). destruct (update_eq _ _ _ _ _ HE E) as (_ & _ & _ & F4 & _).
  replace 1 with (2 / 2) at 2 by field.
  apply (C76_frozen_values (fun _ _ _ => 0) (mkEnv 2 1 1 2 1 1) c0 (s0 2) q 1 1 HE E); cbn; try lra; auto.
  unfold in_equilibrium. rewrite ET, F4. cbn. destruct (Rlt_dec 1 (2 / 2)); [lra|reflexivity].
Qed.
