(* C133, C134: the decay rate the three-particle collision integral computes. *)
From Coq Require Import Reals Lra Psatz.
From Coquelicot Require Import Coquelicot.
From Verif Require Import Base FunctionalModel BoundsModel BoundsProofs BoundsProofs3 Bounds2Props Integrate3Model Integrate3Proofs.
Open Scope R_scope.

(* the two-body decay rate of a particle of mass m0 at rest, into products of
   momentum q, with constant squared amplitude K: K q / (8 pi m0^2) *)
Definition rest_rate (K q m0 : R) : R := K * q / (8 * PI * m0 ^ 2).
(* what an observer sees: time dilation, m / E at the physical momentum y / a *)
Definition dilated (rate m0 a y : R) : R := rate * (m0 / sqrt ((y / a) ^ 2 + m0 ^ 2)).

Lemma compiled_nonneg a aT m : 0 < a -> 0 < aT -> 0 <= m -> 0 <= compiled_mass a aT m.
Proof. intros. unfold compiled_mass. apply Rmult_le_pos; [nra|]. left. now apply Rinv_0_lt_compat. Qed.
Lemma energy_scale c p m : 0 <= c -> energy (p * c) (m * c) = energy p m * c.
Proof. intros Hc. apply energy_of; [pose proof (energy_nonneg p m); nra|]. rewrite !Rpow_mult_distr, energy_sq. ring. Qed.

Lemma rest_momentum_lam m0 m1 m2 q : 0 <= m1 -> 0 <= m2 -> 0 <= q -> energy q m1 + energy q m2 = m0 ->
  (m0 ^ 2 - m1 ^ 2 - m2 ^ 2) ^ 2 - 4 * m1 ^ 2 * m2 ^ 2 = (2 * m0 * q) ^ 2.
Proof.
  intros H1 H2 Hq HE. pose proof (energy_sq q m1) as A. pose proof (energy_sq q m2) as B.
  set (e1 := energy q m1) in *. set (e2 := energy q m2) in *. subst m0.
  replace (m1 ^ 2) with (e1 ^ 2 - q ^ 2) by lra. replace (m2 ^ 2) with (e2 ^ 2 - q ^ 2) by lra. ring.
Qed.

Theorem C133_decay_rate : forall rs (m : nat -> R) a aT H K y q max_2 st, 0 < a -> 0 < aT -> H <> 0 ->
  (forall n, 0 <= m n) -> (forall n, mass (rs n) = compiled_mass a aT (m n)) -> sides3_are rs (-1) 1 1 ->
  (forall n p, exists x, occ (rs n) p = Ok x) -> m 1%nat + m 2%nat < m 0%nat ->
  0 <= q -> sqrt (q ^ 2 + m 1%nat ^ 2) + sqrt (q ^ 2 + m 2%nat ^ 2) = m 0%nat -> 0 <= y ->
  exists I, (forall J, point3_is rs Ff_vacuum max_2 st (compiled_momentum aT y) J <-> J = I) /\
  I * (if Req_EM_T y 0 then constant_0 K a aT H (m 0%nat) else constant_else K a aT H) =
  - (dilated (rest_rate K q (m 0%nat)) (m 0%nat) a y / H).
Proof.
  intros rs m a aT H K y q max_2 st Ha HT HH Hm HM Hs Ho Hth Hq HE Hy.
  fold (energy q (m 1%nat)) in HE. fold (energy q (m 2%nat)) in HE. unfold dilated. fold (energy (y / a) (m 0%nat)).
  assert (Hok : masses_ok rs) by (intros n; rewrite HM; now apply compiled_nonneg).
  pose proof (Hm 1%nat) as M1. pose proof (Hm 2%nat) as M2. assert (M0 : 0 < m 0%nat) by lra.
  set (c := a / aT). assert (Hc : 0 < c) by (apply Rdiv_lt_0_compat; auto).
  assert (HMc : forall n, mass (rs n) = m n * c) by (intros n; rewrite HM; unfold compiled_mass, c; field; lra).
  assert (Hth' : mass (rs 1%nat) + mass (rs 2%nat) < mass (rs 0%nat)) by (rewrite !HMc; nra).
  assert (HE' : energy (q * c) (mass (rs 1%nat)) + energy (q * c) (mass (rs 2%nat)) = mass (rs 0%nat)).
  { rewrite !HMc, !energy_scale by lra. rewrite <- HE. ring. }
  assert (Hqc : 0 <= q * c) by nra.
  assert (HF : forall x0 x1 x2, functional Ff_vacuum [plg (rs 0%nat); plg (rs 1%nat); plg (rs 2%nat)] [x0; x1; x2] = Ok (-1)) by reflexivity.
  pose proof PI_RGT_0 as HPI.
  assert (G : exists I, point3_is rs Ff_vacuum max_2 st (compiled_momentum aT y) I /\
    I * (if Req_EM_T y 0 then constant_0 K a aT H (m 0%nat) else constant_else K a aT H) =
    - (rest_rate K q (m 0%nat) * (m 0%nat / energy (y / a) (m 0%nat)) / H)).
  { destruct (Req_EM_T y 0) as [->|N].
    - exists (q * c * -1). split.
      + replace (compiled_momentum aT 0) with 0 by (unfold compiled_momentum; field; lra). apply rest_point; auto.
        destruct (Ho 0%nat 0) as (x0 & O0). destruct (Ho 1%nat (q * c)) as (x1 & O1). destruct (Ho 2%nat (q * c)) as (x2 & O2).
        exists x0, x1, x2. auto.
      + unfold constant_0. destruct (Req_EM_T (m 0%nat) 0) as [|_]; [lra|].
        replace (0 / a) with 0 by (field; lra). rewrite energy_rest by lra. unfold rest_rate, c. field. repeat split; lra.
    - assert (P0 : 0 < compiled_momentum aT y) by (apply Rdiv_lt_0_compat; lra).
      eexists. split.
      + apply (decay_point_constant rs Ff_vacuum max_2 st (compiled_momentum aT y) (-1)); auto.
        intros p1 p E _. destruct (Ho 0%nat (compiled_momentum aT y)) as (x0 & O0). destruct (Ho 1%nat p1) as (x1 & O1).
        destruct (Ho 2%nat (p 2%nat)) as (x2 & O2). exists x0, x1, x2. auto.
      + assert (HL : sqrt (lam rs) = 2 * mass (rs 0%nat) * (q * c)).
        { unfold lam. rewrite (rest_momentum_lam _ _ _ (q * c)); try apply Hok; auto. apply sqrt_pow2. apply Rmult_le_pos; [pose proof (Hok 0%nat); lra|exact Hqc]. }
        rewrite HL, HMc. replace (compiled_momentum aT y) with (y / a * c) by (unfold compiled_momentum, c; field; lra).
        rewrite energy_scale by lra. unfold constant_else, rest_rate.
        assert (HEp : 0 < energy (y / a) (m 0%nat)) by (pose proof (energy_ge_m (y / a) (m 0%nat)); lra).
        set (Ep := energy (y / a) (m 0%nat)) in *.
        replace (K * a / aT / 32 / PI / H) with (K * c / 32 / PI / H) by (unfold c; field; repeat split; lra).
        field. repeat split; lra. }
  destruct G as (I & HI & HV). exists I. split; [|exact HV].
  intros J. split; [|intros ->; exact HI]. intros HJ. eapply point3_unique; eauto.
Qed.
Print Assumptions C133_decay_rate.
Example C133_ex : 0 <= 1 / 2 /\ sqrt ((1 / 2) ^ 2 + 0 ^ 2) + sqrt ((1 / 2) ^ 2 + 0 ^ 2) = 1.
Proof.
  split; [lra|]. replace ((1 / 2) ^ 2 + 0 ^ 2) with ((1 / 2) * (1 / 2)) by field. rewrite sqrt_square by lra. lra.
Qed.

(* the array returned for a grid that starts at momentum zero: the collision term
   per unit of occupation, f' = ... per logarithmic or linear step *)
Theorem C133_whole_grid : forall (rs : nat -> participant) (m : nat -> R) a aT H K q max_2 majorana dof mult x logmode ys Is cs,
  0 < a -> 0 < aT -> H <> 0 -> dof <> 0 -> x <> 0 ->
  (forall n, 0 <= m n) -> (forall n, mass (rs n) = compiled_mass a aT (m n)) -> sides3_are rs (-1) 1 1 ->
  (forall n p, exists x, occ (rs n) p = Ok x) -> m 1%nat + m 2%nat < m 0%nat ->
  0 <= q -> sqrt (q ^ 2 + m 1%nat ^ 2) + sqrt (q ^ 2 + m 2%nat ^ 2) = m 0%nat ->
  Forall (fun y => 0 < y) ys ->
  Forall2 (fun y I => exists st, point3_is rs Ff_vacuum max_2 st (compiled_momentum aT y) I) (0 :: ys) Is ->
  constants3 K a aT H (m 0%nat) majorana dof mult x logmode (List.length (0 :: ys)) = Ok cs ->
  multiply Is cs = map (fun y => - (dilated (rest_rate K q (m 0%nat)) (m 0%nat) a y / H)
                                 * (mult / (if majorana then dof else dof / 2) / (if logmode then 1 else x))) (0 :: ys).
Proof.
  intros rs m a aT H K q max_2 majorana dof mult x logmode ys Is cs Ha HT HH Hd Hx Hm HM Hs Ho Hth Hq HE Hys HI HC.
  cbn [List.length constants3] in HC. assert (cs = map (modifiers majorana dof mult x logmode) (constant_0 K a aT H (m 0%nat) :: repeat (constant_else K a aT H) (List.length ys))) as -> by congruence.
  clear HC.
  assert (HMOD : forall I c V, I * c = V -> I * modifiers majorana dof mult x logmode c = V * (mult / (if majorana then dof else dof / 2) / (if logmode then 1 else x))).
  { intros I c V <-. unfold modifiers. destruct majorana, logmode; field; auto. }
  assert (HP : forall y I st, 0 <= y -> point3_is rs Ff_vacuum max_2 st (compiled_momentum aT y) I ->
     I * (if Req_EM_T y 0 then constant_0 K a aT H (m 0%nat) else constant_else K a aT H) = - (dilated (rest_rate K q (m 0%nat)) (m 0%nat) a y / H)).
  { intros y I st Hy HPI. destruct (C133_decay_rate rs m a aT H K y q max_2 st Ha HT HH Hm HM Hs Ho Hth Hq HE Hy) as (I' & HU & HV).
    rewrite HU in HPI. now subst I'. }
  inversion HI as [|y0 I0 ys' Is' (st & H0) HR]; subst. cbn [map multiply]. f_equal.
  - apply HMOD. specialize (HP 0 I0 st (Rle_refl 0) H0). destruct (Req_EM_T 0 0); [exact HP|lra].
  - clear HI H0. revert Is' HR Hys. induction ys as [|y ys IH]; intros Is' HR Hys; inversion HR as [|? I ? Is2 (st' & H1) HR']; subst; [reflexivity|].
    inversion Hys as [|? ? Y1 Y2]; subst. cbn [List.length repeat map multiply]. f_equal.
    + apply HMOD. specialize (HP y I st' (Rlt_le _ _ Y1) H1). destruct (Req_EM_T y 0); [lra|exact HP].
    + now apply IH.
Qed.
Print Assumptions C133_whole_grid.
Example C133_grid_ex : exists cs, constants3 1 1 1 1 1 true 2 1 1 true 3 = Ok cs /\ List.length cs = 3%nat.
Proof. eexists. split; reflexivity. Qed.
Theorem C133_constants_length : forall K a aT H m majorana dof mult x logmode n,
  constants3 K a aT H m majorana dof mult x logmode n = Raise ValueError /\ n = O \/
  exists cs, constants3 K a aT H m majorana dof mult x logmode n = Ok cs /\ List.length cs = n /\ (0 < n)%nat.
Proof.
  intros. destruct n as [|n]; [left; split; reflexivity|]. right. eexists. split; [reflexivity|]. split; [|apply Nat.lt_0_succ].
  now rewrite map_length; cbn [List.length]; rewrite repeat_length.
Qed.
Print Assumptions C133_constants_length.

(* C134: a grid that does not start at zero gets the rest-frame constant in its
   first entry all the same *)
Theorem C134_first_entry : forall rs (m : nat -> R) a aT H K y q max_2 st I, 0 < a -> 0 < aT -> H <> 0 ->
  (forall n, 0 <= m n) -> (forall n, mass (rs n) = compiled_mass a aT (m n)) -> sides3_are rs (-1) 1 1 ->
  (forall n p, exists x, occ (rs n) p = Ok x) -> m 1%nat + m 2%nat < m 0%nat ->
  0 <= q -> sqrt (q ^ 2 + m 1%nat ^ 2) + sqrt (q ^ 2 + m 2%nat ^ 2) = m 0%nat -> 0 < y ->
  point3_is rs Ff_vacuum max_2 st (compiled_momentum aT y) I ->
  I * constant_0 K a aT H (m 0%nat) = - (dilated (rest_rate K q (m 0%nat)) (m 0%nat) a y / H) * (2 * (aT / a) / m 0%nat) ^ 2.
Proof.
  intros rs m a aT H K y q max_2 st I Ha HT HH Hm HM Hs Ho Hth Hq HE Hy HI.
  destruct (C133_decay_rate rs m a aT H K y q max_2 st Ha HT HH Hm HM Hs Ho Hth Hq HE (Rlt_le _ _ Hy)) as (I' & HU & HV).
  rewrite HU in HI. subst I'. destruct (Req_EM_T y 0); [lra|]. rewrite <- HV.
  pose proof (Hm 1%nat) as M1. pose proof (Hm 2%nat) as M2. pose proof PI_RGT_0.
  unfold constant_0, constant_else. destruct (Req_EM_T (m 0%nat) 0); [lra|]. field. repeat split; lra.
Qed.
Print Assumptions C134_first_entry.
Definition two_body (n : nat) : participant :=
  match n with
  | O => mkParticipant 1 (mkLeg (-1) 1) (fun _ => Ok 0)
  | _ => mkParticipant 0 (mkLeg 1 1) (fun _ => Ok 0)
  end.
Theorem C134_any_momenta_refuted : exists rs (m : nat -> R) q y I c, (forall n, 0 <= m n) /\ (forall n, mass (rs n) = compiled_mass 1 1 (m n)) /\ sides3_are rs (-1) 1 1 /\
  m 1%nat + m 2%nat < m 0%nat /\ 0 <= q /\ sqrt (q ^ 2 + m 1%nat ^ 2) + sqrt (q ^ 2 + m 2%nat ^ 2) = m 0%nat /\ 0 < y /\
  point3_is rs Ff_vacuum 10 (0, 10) (compiled_momentum 1 y) I /\ constants3 1 1 1 1 (m 0%nat) true 1 1 1 true 1 = Ok [c] /\
  multiply [I] [c] <> [- (dilated (rest_rate 1 q (m 0%nat)) (m 0%nat) 1 y / 1)].
Proof.
  set (m := fun n : nat => match n with O => 1 | _ => 0 end).
  assert (HM : forall n, mass (two_body n) = compiled_mass 1 1 (m n)) by (intros [|n]; unfold compiled_mass; cbn; field).
  assert (Hm : forall n, 0 <= m n) by (intros [|n]; cbn; lra).
  assert (Hs : sides3_are two_body (-1) 1 1) by (repeat split).
  assert (Ho : forall n p, exists x, occ (two_body n) p = Ok x) by (intros [|n] p; eexists; reflexivity).
  assert (Hth : m 1%nat + m 2%nat < m 0%nat) by (cbn; lra). pose proof (proj2 C133_ex) as HE.
  destruct (C133_decay_rate two_body m 1 1 1 1 1 (1 / 2) 10 (0, 10) ltac:(lra) ltac:(lra) ltac:(lra) Hm HM Hs Ho Hth ltac:(lra) HE ltac:(lra)) as (I & HU & _).
  assert (HI : point3_is two_body Ff_vacuum 10 (0, 10) (compiled_momentum 1 1) I) by (now apply HU).
  exists two_body, m, (1 / 2), 1, I. eexists. split; [exact Hm|]. split; [exact HM|]. split; [exact Hs|]. split; [exact Hth|].
  split; [lra|]. split; [exact HE|]. split; [lra|]. split; [exact HI|]. split; [reflexivity|].
  intros HC. cbn [multiply map repeat] in HC. apply (f_equal (fun l => hd 0 l)) in HC. cbn [hd] in HC.
  pose proof (C134_first_entry two_body m 1 1 1 1 1 (1 / 2) 10 (0, 10) I ltac:(lra) ltac:(lra) ltac:(lra) Hm HM Hs Ho Hth ltac:(lra) HE ltac:(lra) HI) as HF.
  unfold modifiers in HC. replace (I * (constant_0 1 1 1 1 (m 0%nat) / 1 * 1)) with (I * constant_0 1 1 1 1 (m 0%nat)) in HC by field.
  rewrite HF in HC. cbn [m] in HC. unfold dilated, rest_rate in HC. pose proof PI_RGT_0 as HP.
  assert (HS : 0 < sqrt ((1 / 1) ^ 2 + 1 ^ 2)) by (apply sqrt_lt_R0; lra).
  set (s := sqrt ((1 / 1) ^ 2 + 1 ^ 2)) in *.
  assert (HX : 0 < 1 * (1 / 2) / (8 * PI * 1 ^ 2) * (1 / s) / 1).
  { repeat apply Rdiv_lt_0_compat; try lra. apply Rmult_lt_0_compat; apply Rdiv_lt_0_compat; lra. }
  set (X := 1 * (1 / 2) / (8 * PI * 1 ^ 2) * (1 / s) / 1) in *. lra.
Qed.
Print Assumptions C134_any_momenta_refuted.
