(* The integrand of the decay at rest into massive products *)
From Coq Require Import Reals Lra Psatz.
From Coquelicot Require Import Coquelicot.
From Verif Require Import Base FunctionalModel DsModel BoundsModel BoundsProofs Integrate4Model ScaleProofs Decay4Proofs DalitzSpec DalitzProofs MassiveSpec MassiveProofs.
Open Scope R_scope.

Lemma Db_massive (p E m : nat -> R) sides K1 K2 o : order_ok o ->
  sides 0%nat = (-1)%Z -> sides 1%nat = 1%Z -> sides 2%nat = 1%Z -> sides 3%nat = 1%Z ->
  0 < p 1%nat -> 0 < p 2%nat -> 0 < p 3%nat -> tri (p 1%nat) (p 2%nat) (p 3%nat) ->
  p 1%nat ^ 2 = E 1%nat ^ 2 - m 1%nat ^ 2 -> p 2%nat ^ 2 = E 2%nat ^ 2 - m 2%nat ^ 2 -> p 3%nat ^ 2 = E 3%nat ^ 2 - m 3%nat ^ 2 ->
  m 0%nat = E 1%nat + E 2%nat + E 3%nat -> 0 < m 0%nat ->
  Db p E m K1 K2 o sides = let '(i, j, k, l) := o in let d := four_dot m (share (m 0%nat) (E 1%nat) (E 2%nat)) in (K1 * d i j * d k l + K2 * m i * m j * d k l) / m 0%nat.
Proof.
  intros Ho S0 S1 S2 S3 P1 P2 P3 T Q1 Q2 Q3 HM HP.
  pose proof T as (T1 & T2 & T3).
  assert (TT : tri (p 1%nat) (p 3%nat) (p 2%nat) /\ tri (p 2%nat) (p 1%nat) (p 3%nat) /\ tri (p 2%nat) (p 3%nat) (p 1%nat) /\ tri (p 3%nat) (p 1%nat) (p 2%nat) /\ tri (p 3%nat) (p 2%nat) (p 1%nat)) by (unfold tri; lra).
  destruct TT as (U1 & U2 & U3 & U4 & U5).
  assert (E3 : m 0%nat - E 1%nat - E 2%nat = E 3%nat) by lra.
  assert (HP' : E 1%nat + E 2%nat + E 3%nat <> 0) by lra.
  apply order_cases in Ho. cbn [In] in Ho.
  repeat match type of Ho with _ \/ _ => destruct Ho as [<-|Ho] | False => contradiction end;
  unfold Db, four_dot, recoil; cbn [Nat.mul Nat.add Nat.eqb Nat.sub share]; rewrite ?S0, ?S1, ?S2, ?S3, ?E3;
  rewrite Db1_tri by assumption; rewrite ?Db2_tri by assumption; rewrite ?Q1, ?Q2, ?Q3;
  destruct (Req_EM_T K1 0) as [Z1|]; destruct (Req_EM_T K2 0) as [Z2|]; cbn [Z.mul Pos.mul Z.opp]; rewrite ?Z1, ?Z2, ?HM; field; assumption.
Qed.

Definition massive_decay (rs : nat -> participant) : Prop :=
  sides4_decay rs /\ (forall n, 0 <= mass (rs n)) /\ mass (rs 1%nat) + mass (rs 2%nat) + mass (rs 3%nat) < mass (rs 0%nat) /\
  forall n p, 0 <= p -> exists x, occ (rs n) p = Ok x.

Section decay.
Variable rs : nat -> participant.
Hypothesis HD : massive_decay rs.
Let m := masses_of rs.
Variables (A : matrix_element) (Ms : list matrix_element).
Hypothesis HO : Forall (fun B => order_ok (order B)) (A :: Ms).
Definition massive_amp (e1 e2 : R) : R := if Req_EM_T (K A) 0 then amplitude_at m (A :: Ms) e1 e2 / m 0%nat else K A.

Lemma occupations_massive p : (forall n, (n < 4)%nat -> 0 <= p n) -> exists f, occupations rs p 0 4 = Ok f.
Proof.
  destruct HD as (_ & _ & _ & HOcc). intros HP. cbn [occupations].
  destruct (HOcc 0%nat (p 0%nat) (HP 0%nat ltac:(lia))) as (x0 & ->). destruct (HOcc 1%nat (p 1%nat) (HP 1%nat ltac:(lia))) as (x1 & ->).
  destruct (HOcc 2%nat (p 2%nat) (HP 2%nat ltac:(lia))) as (x2 & ->). destruct (HOcc 3%nat (p 3%nat) (HP 3%nat ltac:(lia))) as (x3 & ->).
  cbn [rbind]. eauto.
Qed.
Lemma m_pos n : 0 <= m n.
Proof. destruct HD as (_ & H & _). apply H. Qed.
Lemma m_sum : m 1%nat + m 2%nat + m 3%nat < m 0%nat.
Proof. destruct HD as (_ & _ & H & _). exact H. Qed.

Lemma massive_momenta p1 p2 : m 3%nat <= m 0%nat - energy p1 (m 1%nat) - energy p2 (m 2%nat) ->
  exists p E, momenta4 rs 0 p1 p2 = Some (p, E) /\ p 0%nat = 0 /\ p 1%nat = p1 /\ p 2%nat = p2 /\
    p 3%nat = sqrt ((m 0%nat - energy p1 (m 1%nat) - energy p2 (m 2%nat)) ^ 2 - m 3%nat ^ 2) /\
    E 1%nat = energy p1 (m 1%nat) /\ E 2%nat = energy p2 (m 2%nat) /\ E 3%nat = m 0%nat - energy p1 (m 1%nat) - energy p2 (m 2%nat).
Proof.
  intros H. destruct HD as ((S0 & S1 & S2 & S3) & HM & HS & _). unfold momenta4. cbv zeta. fold m. rewrite S0, S1, S2, S3.
  pose proof (m_pos 0) as P0. rewrite energy_rest by exact P0.
  replace ((0 + IZR (-1) * m 0%nat + IZR 1 * energy p1 (m 1%nat) + IZR 1 * energy p2 (m 2%nat)) * - IZR 1) with (m 0%nat - energy p1 (m 1%nat) - energy p2 (m 2%nat)) by ring.
  destruct (Rlt_dec _ (m 3%nat)) as [L|_]; [lra|].
  eexists; eexists; split; [reflexivity|]. repeat split; reflexivity.
Qed.
Lemma energy_sqr y q : energy y q ^ 2 = y ^ 2 + q ^ 2.
Proof. unfold energy. apply pow2_sqrt. pose proof (pow2_ge_0 y). pose proof (pow2_ge_0 q). lra. Qed.
Lemma energy_nonneg y q : 0 <= energy y q.
Proof. apply sqrt_pos. Qed.
Lemma energy_ge y q : 0 <= q -> q <= energy y q.
Proof. intros H. apply sqr_le; [apply sqrt_pos|]. rewrite energy_sqr. pose proof (pow2_ge_0 y). lra. Qed.
Lemma energy_inv y q : 0 <= y -> sqrt (energy y q ^ 2 - q ^ 2) = y.
Proof. intros H. rewrite energy_sqr. replace (y ^ 2 + q ^ 2 - q ^ 2) with (y ^ 2) by ring. now apply sqrt_pow2. Qed.

Lemma integrand_massive_in p1 p2 : 0 < p1 -> 0 < p2 ->
  m 3%nat <= m 0%nat - energy p1 (m 1%nat) - energy p2 (m 2%nat) ->
  tri p1 p2 (sqrt ((m 0%nat - energy p1 (m 1%nat) - energy p2 (m 2%nat)) ^ 2 - m 3%nat ^ 2)) ->
  integrand4 rs A Ms Ff_vacuum 0 p1 p2 =
    Ok (- (velocity p1 (m 1%nat) * velocity p2 (m 2%nat) * massive_amp (energy p1 (m 1%nat)) (energy p2 (m 2%nat)))).
Proof.
  intros H1 H2 H3 T. destruct (massive_momenta p1 p2 H3) as (p & E & HMm & P0 & P1 & P2 & P3 & E1 & E2 & E3).
  unfold integrand4. rewrite HMm. cbv zeta. fold m. pose proof (m_pos 3) as M3. pose proof m_sum as MS.
  pose proof (m_pos 0) as M0. pose proof (m_pos 1) as M1. pose proof (m_pos 2) as M2.
  assert (D : m 3%nat ^ 2 <= (m 0%nat - energy p1 (m 1%nat) - energy p2 (m 2%nat)) ^ 2) by (apply pow_incr; lra).
  assert (T' : tri (p 1%nat) (p 2%nat) (p 3%nat)) by (rewrite P1, P2, P3; exact T). clear T. rename T' into T. pose proof T as (T1 & T2 & T3).
  rewrite in_bounds_rest'; [|rewrite ?E3; lra..].
  set (v := velocity p1 (m 1%nat) * velocity p2 (m 2%nat)).
  destruct (Req_EM_T v 0) as [Z|_]; [rewrite Z; f_equal; ring|].
  assert (HK : kernel p E m (sides_of rs) A Ms = massive_amp (energy p1 (m 1%nat)) (energy p2 (m 2%nat))).
  { destruct HD as ((S0 & S1 & S2 & S3) & _).
    unfold kernel, massive_amp. destruct (Req_EM_T (K A) 0); [|ring]. rewrite P0. destruct (Req_EM_T 0 0) as [_|]; [|lra].
    rewrite fold_kernel, Rplus_0_l. unfold amplitude_at. induction HO as [|B l HB HO' IH]; [cbn; unfold Rdiv; ring|]. cbn [fold_right]. rewrite IH.
    rewrite (Db_massive p E m (sides_of rs) (K1 B) (K2 B) (order B)); try assumption; rewrite ?P1, ?P2, ?E1, ?E2, ?E3; try lra.
    - destruct (order B) as [[[i j] k] l']. cbv zeta. unfold Rdiv. ring.
    - rewrite energy_sqr. ring.
    - rewrite energy_sqr. ring.
    - rewrite P3. rewrite pow2_sqrt by lra. reflexivity.
    - exact HO'. }
  rewrite HK. set (k := massive_amp _ _).
  destruct (Req_EM_T (v * k) 0) as [Z|_]; [rewrite Z; f_equal; ring|].
  destruct (occupations_massive p) as (f & ->).
  { intros i Hi. destruct i as [|[|[|[|i]]]]; [lra|lra|lra|rewrite P3; apply sqrt_pos|lia]. }
  cbn [rbind functional F_f_vacuum_decay]. f_equal. ring.
Qed.
Lemma integrand_massive_out k p1 p2 : 0 <= p1 ->
  m 3%nat <= m 0%nat - energy p1 (m 1%nat) - energy p2 (m 2%nat) ->
  (let p3 := sqrt ((m 0%nat - energy p1 (m 1%nat) - energy p2 (m 2%nat)) ^ 2 - m 3%nat ^ 2) in ~ (p1 <= p2 + p3 /\ p2 <= p1 + p3 /\ p3 <= p1 + p2)) ->
  integrand4 rs A Ms k 0 p1 p2 = Ok 0.
Proof.
  intros H1 H3 T. destruct (massive_momenta p1 p2 H3) as (p & E & HMm & P0 & P1 & P2 & P3 & E1 & E2 & E3).
  unfold integrand4. rewrite HMm. cbv zeta. fold m.
  destruct (in_bounds4 p E m) eqn:B; [|reflexivity]. exfalso. apply T. cbv zeta.
  apply in_bounds_rest in B; [|lra|lra|rewrite E3; exact H3]. rewrite <- P3. rewrite P1, P2 in B. exact B.
Qed.
Lemma integrand_massive_some p1 p2 : 0 <= p1 -> 0 <= p2 ->
  m 3%nat <= m 0%nat - energy p1 (m 1%nat) - energy p2 (m 2%nat) -> exists x, integrand4 rs A Ms Ff_vacuum 0 p1 p2 = Ok x.
Proof.
  intros H1 H2 H3. destruct (massive_momenta p1 p2 H3) as (p & E & HMm & P0 & P1 & P2 & P3 & _).
  unfold integrand4. rewrite HMm. cbv zeta. destruct (in_bounds4 _ _ _); [|eauto]. destruct (Req_EM_T _ 0); [eauto|].
  destruct (Req_EM_T _ 0); [eauto|]. destruct (occupations_massive p) as (f & ->).
  { intros i Hi. destruct i as [|[|[|[|i]]]]; [lra|lra|lra|rewrite P3; apply sqrt_pos|lia]. }
  cbn [rbind functional]. eexists. reflexivity.
Qed.

(* limits *)
Lemma massive_limits_1 mn mx max_3 : snd (p1_step rs max_3 (mn, mx) 0) = Some (mn, Some (sqrt ((m 0%nat - m 2%nat - m 3%nat) ^ 2 - m 1%nat ^ 2))).
Proof.
  destruct HD as ((S0 & S1 & S2 & S3) & _). unfold p1_step. cbv zeta. fold m.
  assert (HS : side_sum rs 4 = DECAY) by (unfold side_sum; cbn [seq fold_left]; now rewrite S0, S1, S2, S3). rewrite HS.
  cbn [Z.eqb DECAY SCATTERING CREATION Pos.eqb]. cbn [snd]. rewrite energy_rest by apply m_pos. unfold csqrt.
  pose proof (m_pos 1). pose proof m_sum. assert (m 1%nat ^ 2 <= (m 0%nat - m 2%nat - m 3%nat) ^ 2) by (apply pow_incr; lra).
  destruct (Rlt_dec _ 0); [lra|reflexivity].
Qed.
Lemma massive_limits_2 mn mx max_3 p1 : m 2%nat <= m 0%nat - energy p1 (m 1%nat) - m 3%nat ->
  p2_limits rs mn mx max_3 0 p1 = Some (Some 0, Some (sqrt ((m 0%nat - energy p1 (m 1%nat) - m 3%nat) ^ 2 - m 2%nat ^ 2))).
Proof.
  intros H. destruct HD as ((S0 & S1 & S2 & S3) & _). unfold p2_limits. cbv zeta. fold m.
  assert (HS : side_sum rs 4 = DECAY) by (unfold side_sum; cbn [seq fold_left]; now rewrite S0, S1, S2, S3). rewrite HS.
  cbn [Z.eqb DECAY SCATTERING CREATION Pos.eqb]. unfold p2_max_dec, csqrt. rewrite energy_rest by apply m_pos.
  pose proof (m_pos 2). assert (m 2%nat ^ 2 <= (m 0%nat - energy p1 (m 1%nat) - m 3%nat) ^ 2) by (apply pow_incr; lra).
  destruct (Rlt_dec _ 0); [lra|reflexivity].
Qed.
End decay.
