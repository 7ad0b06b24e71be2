(* C145: the free neutron. *)
From Coq Require Import Reals Lra Psatz.
From Coquelicot Require Import Coquelicot.
From Verif Require Import Base IntegratorsModel ParamsModel EvolveModel KawanoModel Decay4Proofs NeutronProofs.
Open Scope R_scope.

Lemma vacuum_int a : 0 < a -> let s := sqrt (endpoint ^ 2 - 1) in
  is_RInt (fun y => beta_shape (qnp * a) (m_e * a) (qnp * a - y)) 0 ((qnp - m_e) * a) ((m_e * a) ^ 5 * beta_f endpoint s (ln (endpoint + s))).
Proof.
  intros Ha s. pose proof MeV_pos' as HMeV. assert (Hm : 0 < m_e) by (unfold m_e; lra).
  assert (HB : 0 < m_e * a) by (now apply Rmult_lt_0_compat). assert (HE : 1 < endpoint) by (rewrite endpoint_val; lra).
  pose proof (beta_value (m_e * a) endpoint HB HE) as H. cbv zeta in H. fold s in H.
  assert (HQ : m_e * a * endpoint = qnp * a) by (unfold endpoint; field; lra). rewrite HQ in H.
  apply (is_RInt_swap (V := R_NormedModule)) in H.
  replace (qnp * a) with ((-1) * 0 + qnp * a) in H at 2 by ring. replace (m_e * a) with ((-1) * ((qnp - m_e) * a) + qnp * a) in H at 2 by ring.
  apply (is_RInt_comp_lin (V := R_NormedModule)) in H. apply (is_RInt_scal (V := R_NormedModule) _ _ _ (-1)) in H.
  match goal with |- is_RInt _ _ _ ?v => match type of H with is_RInt _ _ _ ?w => replace v with w by (unfold scal, opp; cbn; unfold mult; cbn; ring) end end.
  eapply is_RInt_ext; [|exact H]. intros x _. unfold scal; cbn; unfold mult; cbn. replace (-1 * x + qnp * a) with (qnp * a - x) by ring. ring.
Qed.
Lemma rate3_shape k a y : 0 < a -> 0 <= y <= (qnp - m_e) * a -> let ye := sqrt ((qnp * a - y) ^ 2 - (m_e * a) ^ 2) in
  rate3 k a y = beta_shape (qnp * a) (m_e * a) (qnp * a - y) * ((1 - fe k ye) * (1 - fnu k y)).
Proof.
  intros Ha Hy ye. unfold rate3, rate_shape. destruct (Rlt_dec (qnp * a - y) (m_e * a)) as [H|H]; [exfalso; lra|]. fold ye. unfold beta_shape. fold ye. ring.
Qed.

(* C145. In empty space the six weak rates reduce to the decay of the free
   neutron, and this rate, computed with the exact integral, is 1 to five digits:
   KAWANO's table is in units of the neutron lifetime. *)
Theorem C145_free_neutron : forall k a, 0 < a -> kpa k = a -> (forall p, fe k p = 0) -> (forall p, fnu k p = 0) ->
  exists I, is_RInt (rate3 k a) 0 ((qnp - m_e) * a) I /\ Rabs (rate_normalization / kpa k ^ 5 * I - 1) < 1 / 10 ^ 5 /\
  forall y, rate1 k a y = 0 /\ rate2 k a y = 0 /\ rate4 k a y = 0 /\ rate5 k a y = 0 /\ rate6 k a y = 0.
Proof.
  intros k a Ha HK H1 H2. eexists. split; [|split].
  - eapply is_RInt_ext; [|exact (vacuum_int a Ha)]. intros y Hy. pose proof MeV_pos'.
    assert (0 < (qnp - m_e) * a) by (apply Rmult_lt_0_compat; [unfold qnp, m_e; lra|exact Ha]). rewrite Rmin_left, Rmax_right in Hy by lra.
    rewrite rate3_shape by (auto; lra). cbv zeta. rewrite H1, H2. match goal with |- ?x = ?y => change (@eq R x y) end. ring.
  - rewrite HK. pose proof beta_f_bounds as HB.
    match goal with |- Rabs (?x - 1) < _ => match type of HB with Rabs (?z - 1) < _ => replace x with z by (field; lra) end end. exact HB.
  - intros y. unfold rate1, rate2, rate4, rate5, rate6, rate_shape. rewrite H2.
    destruct (Rlt_dec (qnp * a + y) (m_e * a)), (Rlt_dec (qnp * a - y) (m_e * a)), (Rlt_dec (- qnp * a + y) (m_e * a)); repeat split; try reflexivity; rewrite ?H1; ring.
Qed.
Print Assumptions C145_free_neutron.
(* A medium can only slow the decay down. *)
Theorem C145_blocking : forall k a I, 0 < a -> kpa k = a -> (forall p, 0 <= fe k p <= 1) -> (forall p, 0 <= fnu k p <= 1) ->
  is_RInt (rate3 k a) 0 ((qnp - m_e) * a) I -> 0 <= rate_normalization / kpa k ^ 5 * I < 1 + 1 / 10 ^ 5.
Proof.
  intros k a I Ha HK H1 H2 HI. pose proof MeV_pos' as HMeV. assert (HD : 0 < (qnp - m_e) * a) by (apply Rmult_lt_0_compat; [unfold qnp, m_e; lra|exact Ha]).
  assert (HN : 0 < rate_normalization / kpa k ^ 5).
  { rewrite HK. apply Rdiv_lt_0_compat; [|now apply pow_lt]. unfold rate_normalization. apply Rdiv_lt_0_compat; [lra|now apply pow_lt]. }
  assert (HS : forall y, 0 < y < (qnp - m_e) * a -> 0 <= rate3 k a y <= beta_shape (qnp * a) (m_e * a) (qnp * a - y)).
  { intros y Hy. rewrite rate3_shape by (auto; lra). cbv zeta. set (ye := sqrt _).
    assert (0 <= beta_shape (qnp * a) (m_e * a) (qnp * a - y)).
    { unfold beta_shape. apply Rmult_le_pos; [apply Rmult_le_pos; [apply pow2_ge_0|apply sqrt_pos]|]. assert (0 < m_e * a) by (apply Rmult_lt_0_compat; [unfold m_e; lra|exact Ha]). lra. }
    specialize (H1 ye). specialize (H2 y). assert (0 <= (1 - fe k ye) * (1 - fnu k y) <= 1) by nra. nra. }
  assert (B0 : 0 <= I).
  { refine (is_RInt_le (fun _ => 0) (rate3 k a) 0 ((qnp - m_e) * a) 0 I _ _ HI _); [lra|now apply is_RInt_zero_on|]. intros y Hy. now apply HS. }
  assert (B1 : I <= (m_e * a) ^ 5 * beta_f endpoint (sqrt (endpoint ^ 2 - 1)) (ln (endpoint + sqrt (endpoint ^ 2 - 1)))).
  { refine (is_RInt_le _ _ 0 ((qnp - m_e) * a) _ _ _ HI (vacuum_int a Ha) _); [lra|]. intros y Hy. now apply HS. }
  split; [nra|]. pose proof beta_f_bounds as HB. apply Rabs_def2 in HB. destruct HB as [HB _].
  apply (Rmult_le_compat_l (rate_normalization / kpa k ^ 5)) in B1; [|lra].
  match type of HB with ?z - 1 < _ => match type of B1 with _ <= ?x => replace x with z in B1 by (rewrite HK; field; lra) end end. lra.
Qed.
Print Assumptions C145_blocking.
Example C145_example : let k := mkKparts (fun _ => 0) (fun _ => 0) 0 (20 * MeV) 2 in 0 < rate3 k 2 (MeV / 2) /\ 0 < (qnp - m_e) * 2.
Proof.
  cbn zeta. pose proof MeV_pos' as HM. split; [|unfold qnp, m_e; lra].
  rewrite rate3_shape by (try lra; unfold qnp, m_e; lra). cbv zeta. cbn [fe fnu]. unfold beta_shape.
  assert (HQ : qnp = 1293332 / 1000000 * MeV) by (unfold qnp; field). rewrite HQ. unfold m_e.
  apply Rmult_lt_0_compat; [|lra]. apply Rmult_lt_0_compat; [|lra]. apply Rmult_lt_0_compat; [apply pow_lt; lra|]. apply sqrt_lt_R0. nra.
Qed.
