(* The nested integral of the decay at rest into massive products *)
From Coq Require Import Reals Lra Psatz.
From Coquelicot Require Import Coquelicot.
From Verif Require Import Base FunctionalModel DsModel BoundsModel BoundsProofs Integrate4Model ScaleProofs Decay4Proofs DalitzSpec DalitzProofs MassiveSpec MassiveProofs Massive2Proofs Massive3Proofs.
Open Scope R_scope.

Lemma sqr_lt' x y : 0 <= x < y -> x ^ 2 < y ^ 2.
Proof. intros H. nra. Qed.

Section region.
Variable ms : nat -> R.
Hypothesis Hp : forall n, 0 <= ms n.
Hypothesis Hsum : ms 1%nat + ms 2%nat + ms 3%nat < ms 0%nat.
Let s e1 := recoil (ms 0%nat) (ms 1%nat) e1.

Lemma m0_pos : 0 < ms 0%nat.
Proof. pose proof (Hp 1). pose proof (Hp 2). pose proof (Hp 3). lra. Qed.
Lemma s_threshold e1 : e1 <= e1_max ms <-> (ms 2%nat + ms 3%nat) ^ 2 <= s e1.
Proof.
  pose proof m0_pos as P. unfold s, recoil, e1_max. assert (T : 0 < 2 * ms 0%nat) by lra. split; intros H.
  - apply (proj2 (Rle_div_r _ _ _ T)) in H. lra.
  - apply (proj1 (Rle_div_r _ _ _ T)). lra.
Qed.
Lemma e1_range : ms 1%nat <= e1_max ms <= ms 0%nat - ms 2%nat - ms 3%nat.
Proof.
  pose proof m0_pos as P. pose proof (Hp 1). pose proof (Hp 2). pose proof (Hp 3). unfold e1_max. assert (T : 0 < 2 * ms 0%nat) by lra. split.
  - apply (proj1 (Rle_div_r _ _ _ T)). assert ((ms 2%nat + ms 3%nat) ^ 2 <= (ms 0%nat - ms 1%nat) ^ 2) by (apply pow_incr; lra). lra.
  - apply (proj2 (Rle_div_l _ _ _ T)). assert (ms 1%nat ^ 2 <= (ms 0%nat - (ms 2%nat + ms 3%nat)) ^ 2) by (apply pow_incr; lra). nra.
Qed.
Lemma below_m0 e1 : e1 <= e1_max ms -> e1 < ms 0%nat.
Proof.
  intros H. apply s_threshold in H. unfold s, recoil in H. pose proof m0_pos as P. pose proof (Hp 1). pose proof (Hp 2). pose proof (Hp 3). pose proof (pow2_ge_0 (ms 2%nat + ms 3%nat)).
  assert (ms 1%nat ^ 2 < ms 0%nat ^ 2) by (apply sqr_lt'; lra). nra.
Qed.
Lemma s_pos e1 : e1 < e1_max ms -> 0 < s e1.
Proof.
  intros H. pose proof m0_pos as P. assert (T : 0 < 2 * ms 0%nat) by lra. unfold e1_max in H. apply (proj2 (Rlt_div_r _ _ _ T)) in H. unfold s, recoil. pose proof (pow2_ge_0 (ms 2%nat + ms 3%nat)). lra.
Qed.
Lemma s_pos' e1 : e1 <= e1_max ms -> ms 2%nat + ms 3%nat <> 0 -> 0 < s e1.
Proof. intros H N. apply s_threshold in H. assert (0 < (ms 2%nat + ms 3%nat) ^ 2) by (now apply pow2_gt_0). lra. Qed.
(* what section [pair] of MassiveProofs says of the region *)
Lemma pair_of p1 : let e1 := energy p1 (ms 1%nat) in 0 <= p1 ->
  let ep := ms 0%nat - e1 in
  ep ^ 2 - p1 ^ 2 = s e1 /\
  e2_mid ms e1 = ep * (ep ^ 2 - p1 ^ 2 + ms 2%nat ^ 2 - ms 3%nat ^ 2) / (2 * (ep ^ 2 - p1 ^ 2)) /\
  e2_half ms e1 = p1 * sqrt (kallen (ep ^ 2 - p1 ^ 2) (ms 2%nat ^ 2) (ms 3%nat ^ 2)) / (2 * (ep ^ 2 - p1 ^ 2)).
Proof.
  intros e1 H1 ep.
  assert (ES : ep ^ 2 - p1 ^ 2 = s e1). { unfold ep, s, recoil, e1. pose proof (energy_sqr p1 (ms 1%nat)). lra. }
  split; [exact ES|]. rewrite ES. split; [reflexivity|]. unfold e2_half. fold (s e1). unfold e1 at 1. rewrite energy_inv by exact H1. reflexivity.
Qed.
(* the limits, extended to the tip of the region when products 2 and 3 are massless *)
Definition e2_lo e1 := if Req_EM_T (ms 2%nat + ms 3%nat) 0 then (ms 0%nat - e1 - sqrt (e1 ^ 2 - ms 1%nat ^ 2)) / 2 else e2_mid ms e1 - e2_half ms e1.
Definition e2_hi e1 := if Req_EM_T (ms 2%nat + ms 3%nat) 0 then (ms 0%nat - e1 + sqrt (e1 ^ 2 - ms 1%nat ^ 2)) / 2 else e2_mid ms e1 + e2_half ms e1.
Lemma limits_are e1 : 0 < s e1 -> e2_lo e1 = e2_mid ms e1 - e2_half ms e1 /\ e2_hi e1 = e2_mid ms e1 + e2_half ms e1.
Proof.
  intros H. unfold e2_lo, e2_hi. destruct (Req_EM_T _ 0) as [Z|_]; [|now split]. pose proof (Hp 2). pose proof (Hp 3).
  assert (Z2 : ms 2%nat = 0) by lra. assert (Z3 : ms 3%nat = 0) by lra.
  unfold e2_mid, e2_half. cbv zeta. fold (s e1). rewrite Z2, Z3. unfold kallen.
  replace (s e1 ^ 2 + (0 ^ 2) ^ 2 + (0 ^ 2) ^ 2 - 2 * s e1 * 0 ^ 2 - 2 * s e1 * 0 ^ 2 - 2 * 0 ^ 2 * 0 ^ 2) with (s e1 ^ 2) by ring.
  rewrite (sqrt_pow2 (s e1)) by lra. split; field; lra.
Qed.
Lemma limits_continuous e1 : e1 <= e1_max ms -> continuous e2_lo e1 /\ continuous e2_hi e1.
Proof.
  intros HM. unfold e2_lo, e2_hi.
  assert (CS : continuous (fun e1 => sqrt (e1 ^ 2 - ms 1%nat ^ 2)) e1).
  { apply (continuous_comp (fun e1 => e1 ^ 2 - ms 1%nat ^ 2) sqrt); [|apply continuous_sqrt]. apply (ex_derive_continuous (V := R_NormedModule)). auto_derive. trivial. }
  destruct (Req_EM_T _ 0) as [_|N].
  { assert (C0 : continuous (fun e1 : R => ms 0%nat - e1) e1) by (apply (ex_derive_continuous (V := R_NormedModule)); auto_derive; trivial).
    split; unfold Rdiv.
    - apply (continuous_mult (K := R_AbsRing) (fun e1 => ms 0%nat - e1 - sqrt (e1 ^ 2 - ms 1%nat ^ 2)) (fun _ => / 2)); [|apply continuous_const].
      exact (continuous_minus (V := R_NormedModule) (fun e1 : R => ms 0%nat - e1) (fun e1 => sqrt (e1 ^ 2 - ms 1%nat ^ 2)) e1 C0 CS).
    - apply (continuous_mult (K := R_AbsRing) (fun e1 => ms 0%nat - e1 + sqrt (e1 ^ 2 - ms 1%nat ^ 2)) (fun _ => / 2)); [|apply continuous_const].
      exact (continuous_plus (V := R_NormedModule) (fun e1 : R => ms 0%nat - e1) (fun e1 => sqrt (e1 ^ 2 - ms 1%nat ^ 2)) e1 C0 CS). }
  pose proof (s_pos' e1 HM N) as H. unfold s in H.
  assert (C1 : continuous (e2_mid ms) e1).
  { apply (ex_derive_continuous (V := R_NormedModule)). unfold e2_mid, recoil in *. auto_derive. rewrite ?Rmult_1_r. intros E. nra. }
  assert (C2 : continuous (e2_half ms) e1).
  { unfold e2_half. cbv zeta. unfold Rdiv. apply (continuous_mult (K := R_AbsRing) (fun e1 => sqrt (e1 ^ 2 - ms 1%nat ^ 2) * sqrt (kallen (recoil (ms 0%nat) (ms 1%nat) e1) (ms 2%nat ^ 2) (ms 3%nat ^ 2))) (fun e1 => / (2 * recoil (ms 0%nat) (ms 1%nat) e1))).
    - apply (continuous_mult (K := R_AbsRing) (fun e1 => sqrt (e1 ^ 2 - ms 1%nat ^ 2)) (fun e1 => sqrt (kallen (recoil (ms 0%nat) (ms 1%nat) e1) (ms 2%nat ^ 2) (ms 3%nat ^ 2)))).
      + exact CS.
      + apply (continuous_comp (fun e1 => kallen (recoil (ms 0%nat) (ms 1%nat) e1) (ms 2%nat ^ 2) (ms 3%nat ^ 2)) sqrt); [|apply continuous_sqrt].
        apply (ex_derive_continuous (V := R_NormedModule)). unfold kallen, recoil. auto_derive. trivial.
    - apply (ex_derive_continuous (V := R_NormedModule)). unfold recoil in *. auto_derive. rewrite ?Rmult_1_r. intros E. nra. }
  split; [apply (continuous_minus (V := R_NormedModule) (e2_mid ms) (e2_half ms))|apply (continuous_plus (V := R_NormedModule) (e2_mid ms) (e2_half ms))]; assumption.
Qed.

Variables (f F : R -> R -> R).
Hypothesis HQ : quad2 f F.
Definition slice e1 : R := F e1 (e2_hi e1) - F e1 (e2_lo e1).
Lemma slice_is e1 : is_RInt (f e1) (e2_lo e1) (e2_hi e1) (slice e1).
Proof. now apply quad2_integral. Qed.
Lemma slice_continuous e1 : e1 <= e1_max ms -> continuous slice e1.
Proof.
  intros H. destruct (limits_continuous e1 H) as [A B]. unfold slice.
  apply (continuous_minus (V := R_NormedModule) (fun e1 => F e1 (e2_hi e1)) (fun e1 => F e1 (e2_lo e1))); apply (quad2_along f); assumption.
Qed.
Lemma region_exists : exists I, is_RInt slice (ms 1%nat) (e1_max ms) I /\ region_is ms f I.
Proof.
  pose proof e1_range as ER. destruct (ex_RInt_continuous (V := R_CompleteNormedModule) slice (ms 1%nat) (e1_max ms)) as [I HI].
  - intros x Hx. rewrite Rmin_left, Rmax_right in Hx by lra. apply slice_continuous. lra.
  - exists I. split; [exact HI|]. exists slice. split; [|exact HI]. intros e1 He. destruct (limits_are e1 (s_pos e1 (proj2 He))) as [<- <-]. apply slice_is.
Qed.
End region.
Lemma region_unique ms f I J : ms 1%nat <= e1_max ms -> region_is ms f I -> region_is ms f J -> I = J.
Proof.
  intros HR (g & HG & HI) (h & HH & HJ). apply (is_RInt_ext _ h) in HI.
  - rewrite <- (is_RInt_unique (V := R_CompleteNormedModule) _ _ _ _ HI). now apply (is_RInt_unique (V := R_CompleteNormedModule)).
  - intros x Hx. rewrite Rmin_left, Rmax_right in Hx by lra.
    rewrite <- (is_RInt_unique (V := R_CompleteNormedModule) _ _ _ _ (HG x Hx)). now apply (is_RInt_unique (V := R_CompleteNormedModule)), HH.
Qed.

Section value.
Variable rs : nat -> participant.
Hypothesis HD : massive_decay rs.
Variables (A : matrix_element) (Ms : list matrix_element).
Hypothesis HO : Forall (fun B => order_ok (order B)) (A :: Ms).
Let ms := masses_of rs.
Let f := massive_amp rs A Ms.

Lemma amp_quad : exists F, quad2 f F.
Proof.
  unfold f, massive_amp. destruct (Req_EM_T (K A) 0).
  - destruct (quad2_amplitude ms (A :: Ms) HO) as (F & Q). destruct (quad2_scal (/ ms 0%nat) _ _ Q) as (G & Q'). exists G. eapply quad2_ext; [|exact Q']. intros x y. cbv beta. fold ms. unfold Rdiv. ring.
  - exact (quad2_const (K A)).
Qed.
Lemma energy_mono x y q : 0 <= x <= y -> energy x q <= energy y q.
Proof. intros H. unfold energy. apply sqrt_le_1_alt, Rplus_le_compat_r, pow_incr. lra. Qed.
Lemma energy_strict x y q : 0 <= x < y -> energy x q < energy y q.
Proof. intros H. unfold energy. apply sqrt_lt_1_alt. split; [pose proof (pow2_ge_0 x); pose proof (pow2_ge_0 q); lra|]. nra. Qed.
Lemma energy_of_root e q : 0 <= q -> q <= e -> energy (sqrt (e ^ 2 - q ^ 2)) q = e.
Proof.
  intros H L. assert (q ^ 2 <= e ^ 2) by (apply pow_incr; lra). unfold energy. rewrite pow2_sqrt by lra.
  replace (e ^ 2 - q ^ 2 + q ^ 2) with (e ^ 2) by ring. apply sqrt_pow2. lra.
Qed.
Lemma root_energy_le p e q : 0 <= p -> 0 <= q -> q <= e -> energy p q <= e <-> p <= sqrt (e ^ 2 - q ^ 2).
Proof.
  intros HP HQ HE. split; intros H.
  - rewrite <- (energy_inv p q HP). apply sqrt_le_1_alt. assert (energy p q ^ 2 <= e ^ 2); [|lra]. apply pow_incr. pose proof (energy_nonneg p q). lra.
  - rewrite <- (energy_of_root e q HQ HE). apply energy_mono. lra.
Qed.

Variables (F : R -> R -> R).
Hypothesis HQ : quad2 f F.
Variables (mn mx : option R) (max_3 : R).
Let P1 := sqrt ((ms 0%nat - ms 2%nat - ms 3%nat) ^ 2 - ms 1%nat ^ 2).

Definition half_at_tip : R := if Req_EM_T (K A) 0 then / 2 else 1.
Lemma Db_tip (p E m : nat -> R) sides K1 K2 o : order_ok o ->
  sides 0%nat = (-1)%Z -> sides 1%nat = 1%Z -> sides 2%nat = 1%Z -> sides 3%nat = 1%Z ->
  0 < p 2%nat -> 0 < p 3%nat -> p 1%nat = p 2%nat + p 3%nat -> m 2%nat = 0 -> m 3%nat = 0 -> E 2%nat = p 2%nat -> E 3%nat = p 3%nat ->
  m 1%nat ^ 2 = E 1%nat ^ 2 - p 1%nat ^ 2 -> m 0%nat = E 1%nat + E 2%nat + E 3%nat -> 0 < m 0%nat ->
  Db p E m K1 K2 o sides = / 2 * let '(i, j, k, l) := o in let d := four_dot m (share (m 0%nat) (E 1%nat) (E 2%nat)) in (K1 * d i j * d k l + K2 * m i * m j * d k l) / m 0%nat.
Proof.
  intros Ho S0 S1 S2 S3 P2 P3 Q0 M2 M3 E2 E3 Q1 HM HP.
  destruct (Db2_edge (p 1%nat) (p 2%nat) (p 3%nat) P2 P3 Q0) as (B1 & B2 & B3 & B4 & B5 & B6).
  assert (E3' : m 0%nat - E 1%nat - E 2%nat = E 3%nat) by lra. assert (HP' : E 1%nat + p 2%nat + p 3%nat <> 0) by lra.
  apply order_cases in Ho. cbn [In] in Ho.
  repeat match type of Ho with _ \/ _ => destruct Ho as [<-|Ho] | False => contradiction end;
  unfold Db, four_dot, recoil; cbn [Nat.mul Nat.add Nat.eqb Nat.sub share]; rewrite ?S0, ?S1, ?S2, ?S3, ?E3';
  rewrite Db1_edge by assumption; rewrite ?B1, ?B2, ?B3, ?B4, ?B5, ?B6; rewrite ?M2, ?M3, ?Q1;
  destruct (Req_EM_T K1 0) as [Z1|]; destruct (Req_EM_T K2 0) as [Z2|]; cbn [Z.mul Pos.mul Z.opp]; rewrite ?Z1, ?Z2, ?HM, ?E2, ?E3, ?Q0; field; assumption.
Qed.
Lemma integrand_massive_tip p1 p2 : 0 < p1 -> 0 < p2 < p1 -> ms 2%nat = 0 -> ms 3%nat = 0 -> ms 0%nat - energy p1 (ms 1%nat) = p1 ->
  integrand4 rs A Ms Ff_vacuum 0 p1 p2 =
    Ok (- (velocity p1 (ms 1%nat) * velocity p2 (ms 2%nat) * (half_at_tip * f (energy p1 (ms 1%nat)) (energy p2 (ms 2%nat))))).
Proof.
  intros H1 H2 Z2 Z3 EQ. assert (EE : energy p2 (ms 2%nat) = p2) by (rewrite Z2; apply energy_zero; lra).
  assert (H3 : ms 3%nat <= ms 0%nat - energy p1 (ms 1%nat) - energy p2 (ms 2%nat)) by (rewrite EQ, EE, Z3; lra).
  destruct (massive_momenta rs HD p1 p2 H3) as (p & E & HMm & P0 & P1' & P2 & P3 & E1 & E2 & E3). fold ms in P3, E1, E2, E3.
  rewrite EQ, EE, Z3 in P3. replace ((p1 - p2) ^ 2 - 0 ^ 2) with ((p1 - p2) ^ 2) in P3 by ring. rewrite sqrt_pow2 in P3 by lra.
  rewrite EE in E2. rewrite EQ, EE in E3.
  unfold integrand4. rewrite HMm. cbv zeta. fold ms. pose proof (m_pos rs HD 0) as M0. fold ms in M0. pose proof (energy_nonneg p1 (ms 1%nat)) as EN.
  rewrite in_bounds_rest'; [|lra..].
  set (v := velocity p1 (ms 1%nat) * velocity p2 (ms 2%nat)).
  destruct (Req_EM_T v 0) as [Z|_]; [rewrite Z; f_equal; ring|].
  assert (HK : kernel p E ms (sides_of rs) A Ms = half_at_tip * f (energy p1 (ms 1%nat)) (energy p2 (ms 2%nat))).
  { destruct HD as ((S0 & S1 & S2 & S3) & _).
    unfold kernel, f, massive_amp, half_at_tip. destruct (Req_EM_T (K A) 0); [|ring]. rewrite P0. destruct (Req_EM_T 0 0) as [_|]; [|lra].
    rewrite fold_kernel, Rplus_0_l. unfold amplitude_at. fold ms. induction HO as [|B l HB HO' IH]; [cbn; unfold Rdiv; ring|]. cbn [fold_right]. rewrite IH.
    rewrite (Db_tip p E ms (sides_of rs) (K1 B) (K2 B) (order B)); try assumption; rewrite ?P1', ?P2, ?E1, ?E2, ?E3; try lra.
    - rewrite EE. destruct (order B) as [[[i j] k] l']. cbv zeta. unfold Rdiv. ring.
    - rewrite energy_sqr. ring.
    - exact HO'. }
  rewrite HK. set (k := half_at_tip * _).
  destruct (Req_EM_T (v * k) 0) as [Z|_]; [rewrite Z; f_equal; ring|].
  destruct (occupations_massive rs HD p) as (fs & ->).
  { intros i Hi. destruct i as [|[|[|[|i]]]]; [lra..|lia]. }
  cbn [rbind functional F_f_vacuum_decay]. f_equal. ring.
Qed.

Lemma inner_massive p1 : 0 < p1 < P1 ->
  inner_is rs A Ms Ff_vacuum mn mx max_3 0 p1
    (let e1 := energy p1 (ms 1%nat) in let y := - (velocity p1 (ms 1%nat) * slice ms F e1) in
     if Rlt_dec 0 (recoil (ms 0%nat) (ms 1%nat) e1) then if Rle_dec e1 (e1_max ms) then y else 0
     else if Req_EM_T (recoil (ms 0%nat) (ms 1%nat) e1) 0 then if Rle_dec e1 (e1_max ms) then half_at_tip * y else 0 else 0).
Proof.
  intros [H1 H2]. pose proof (m_pos rs HD) as Hp. fold ms in Hp. pose proof (m_sum rs HD) as Hs. fold ms in Hs.
  pose proof (Hp 1%nat) as M1. pose proof (Hp 2%nat) as M2. pose proof (Hp 3%nat) as M3.
  set (e1 := energy p1 (ms 1%nat)).
  assert (HE1 : e1 < ms 0%nat - ms 2%nat - ms 3%nat).
  { unfold e1. rewrite <- (energy_of_root (ms 0%nat - ms 2%nat - ms 3%nat) (ms 1%nat) M1) by lra. apply energy_strict. fold P1. lra. }
  unfold inner_is. rewrite (massive_limits_2 rs HD) by (fold ms e1; lra). fold ms e1.
  set (P2 := sqrt ((ms 0%nat - e1 - ms 3%nat) ^ 2 - ms 2%nat ^ 2)).
  assert (HP2 : 0 <= P2) by apply sqrt_pos.
  assert (E2 : forall p2, 0 < p2 < P2 -> ms 2%nat <= energy p2 (ms 2%nat) /\ ms 3%nat <= ms 0%nat - e1 - energy p2 (ms 2%nat)).
  { intros p2 Hp2. split; [now apply energy_ge|]. assert (energy p2 (ms 2%nat) <= ms 0%nat - e1 - ms 3%nat); [|lra].
    apply root_energy_le; [lra|exact M2|lra|fold P2; lra]. }
  exists (fun p2 => match integrand4 rs A Ms Ff_vacuum 0 p1 p2 with Ok x => x | Raise _ => 0 end).
  rewrite Rmin_left, Rmax_right by exact HP2. split.
  { intros p2 Hp2. destruct (E2 p2 Hp2) as [_ E3]. destruct (integrand_massive_some rs HD A Ms p1 p2 ltac:(lra) ltac:(lra) E3) as (x & ->). reflexivity. }
  assert (OUT : forall p2, 0 < p2 < P2 -> ~ (let p3 := sqrt ((ms 0%nat - e1 - energy p2 (ms 2%nat)) ^ 2 - ms 3%nat ^ 2) in p1 <= p2 + p3 /\ p2 <= p1 + p3 /\ p3 <= p1 + p2) ->
    match integrand4 rs A Ms Ff_vacuum 0 p1 p2 with Ok x => x | Raise _ => 0 end = 0).
  { intros p2 Hp2 HN. rewrite (integrand_massive_out rs HD A Ms Ff_vacuum p1 p2); [reflexivity|lra|exact (proj2 (E2 p2 Hp2))|exact HN]. }
  destruct (pair_of ms p1 ltac:(lra)) as (ES & EMid & EHalf). fold e1 in ES, EMid, EHalf.
  set (S := recoil (ms 0%nat) (ms 1%nat) e1) in *.
  assert (LOW : ~ e1 <= e1_max ms -> is_RInt (fun p2 => match integrand4 rs A Ms Ff_vacuum 0 p1 p2 with Ok x => x | Raise _ => 0 end) 0 P2 0).
  { intros L. apply is_RInt_zero_on. intros p2 Hp2. rewrite Rmin_left, Rmax_right in Hp2 by lra. apply OUT; [exact Hp2|]. intros (T & _).
    destruct (E2 p2 Hp2) as [X Y].
    apply (below_threshold (ms 0%nat - e1) p1 (ms 2%nat) (ms 3%nat) (energy p2 (ms 2%nat)) M2 M3 ltac:(lra) X Y).
    * pose proof (s_threshold ms Hp Hs e1) as TH. assert (~ (ms 2%nat + ms 3%nat) ^ 2 <= recoil (ms 0%nat) (ms 1%nat) e1) by tauto.
      unfold recoil in H. pose proof (energy_sqr p1 (ms 1%nat)) as Q. fold e1 in Q. lra.
    * rewrite energy_inv by lra. exact T. }
  assert (NEG : ~ 0 <= S -> ~ e1 <= e1_max ms).
  { intros N L. apply N. apply (s_threshold ms Hp Hs) in L. pose proof (pow2_ge_0 (ms 2%nat + ms 3%nat)). unfold S. lra. }
  cbv zeta. fold e1 S. destruct (Rlt_dec 0 S) as [SP|SP]; [|destruct (Req_EM_T S 0) as [SZ|SN]; [|apply LOW, NEG; lra]]; (destruct (Rle_dec e1 (e1_max ms)) as [L|L]; [|exact (LOW L)]).
  - assert (EP : 0 < ms 0%nat - e1) by (pose proof (below_m0 ms Hp Hs e1 L); lra).
    destruct (limits_are ms Hp e1 SP) as [LA LB].
    set (ep := ms 0%nat - e1) in *. rewrite <- ES in SP.
    assert (ST : (ms 2%nat + ms 3%nat) ^ 2 <= ep ^ 2 - p1 ^ 2) by (rewrite ES; unfold S; apply (s_threshold ms Hp Hs); exact L).
    assert (P0 : 0 <= p1) by lra.
    pose proof (lo_range ep p1 (ms 2%nat) (ms 3%nat) M2 M3 P0 EP SP ST) as LO. pose proof (hi_range ep p1 (ms 2%nat) (ms 3%nat) M2 M3 P0 EP SP ST) as HI.
    pose proof (half_pos ep p1 (ms 2%nat) (ms 3%nat) P0 SP) as HH.
    pose proof (inside ep p1 (ms 2%nat) (ms 3%nat) M2 M3 P0 EP SP ST) as IN. pose proof (outside ep p1 (ms 2%nat) (ms 3%nat) M2 M3 P0 SP ST) as OU.
    rewrite <- EMid, <- EHalf in LO, HI. rewrite <- EHalf in HH. rewrite <- LA in LO. rewrite <- LB in HI.
    assert (IN' : forall e, e2_lo ms e1 < e < e2_hi ms e1 -> ms 2%nat < e /\ e < ep - ms 3%nat /\ tri p1 (sqrt (e ^ 2 - ms 2%nat ^ 2)) (sqrt ((ep - e) ^ 2 - ms 3%nat ^ 2))).
    { intros e He. apply IN; [lra|]. rewrite <- EMid, <- EHalf, <- LA, <- LB. exact He. }
    assert (OU' : forall e, ms 2%nat <= e -> ms 3%nat <= ep - e -> e < e2_lo ms e1 \/ e2_hi ms e1 < e ->
      ~ (p1 <= sqrt (e ^ 2 - ms 2%nat ^ 2) + sqrt ((ep - e) ^ 2 - ms 3%nat ^ 2) /\ sqrt (e ^ 2 - ms 2%nat ^ 2) <= p1 + sqrt ((ep - e) ^ 2 - ms 3%nat ^ 2) /\ sqrt ((ep - e) ^ 2 - ms 3%nat ^ 2) <= p1 + sqrt (e ^ 2 - ms 2%nat ^ 2))).
    { intros e X Y Z. apply OU; [exact X|exact Y|]. rewrite <- EMid, <- EHalf, <- LA, <- LB. exact Z. }
    clear IN OU. assert (LH : e2_lo ms e1 <= e2_hi ms e1) by (rewrite LA, LB; lra).
    set (a := sqrt (e2_lo ms e1 ^ 2 - ms 2%nat ^ 2)). set (b := sqrt (e2_hi ms e1 ^ 2 - ms 2%nat ^ 2)).
    assert (Ea : energy a (ms 2%nat) = e2_lo ms e1) by (apply energy_of_root; lra). assert (Eb : energy b (ms 2%nat) = e2_hi ms e1) by (apply energy_of_root; lra).
    assert (A0 : 0 <= a) by apply sqrt_pos.
    assert (AB : a <= b) by (apply root_energy_le; [exact A0|exact M2|lra|rewrite Ea; exact LH]).
    assert (HI' : e2_hi ms e1 <= ms 0%nat - e1 - ms 3%nat) by exact HI.
    assert (BP : b <= P2) by (apply root_energy_le; [apply sqrt_pos|exact M2|lra|rewrite Eb; exact HI']).
    replace (- (velocity p1 (ms 1%nat) * slice ms F e1)) with (0 + (- (velocity p1 (ms 1%nat) * slice ms F e1) + 0)) by ring.
    apply (chasles_R _ 0 a P2); [|apply (chasles_R _ a b P2)].
    + apply is_RInt_zero_on. intros p2 Hp2. rewrite Rmin_left, Rmax_right in Hp2 by lra. assert (Hq : 0 < p2 < P2) by lra. apply OUT; [exact Hq|]. cbv zeta.
      destruct (E2 p2 Hq) as [X Y]. specialize (OU' (energy p2 (ms 2%nat)) X Y). rewrite energy_inv in OU' by lra. apply OU'. left. rewrite <- Ea. apply energy_strict. lra.
    + pose proof (subst_energy (f e1) (ms 2%nat) a b (slice ms F e1) M2 (conj A0 AB)) as SB. rewrite Ea, Eb in SB.
      specialize (SB (fun x _ => quad2_continuous f F e1 x HQ) (slice_is ms f F HQ e1)).
      pose proof (is_RInt_opp (V := R_NormedModule) _ _ _ _ (is_RInt_scal (V := R_NormedModule) _ _ _ (velocity p1 (ms 1%nat)) _ SB)) as SC.
      eapply is_RInt_ext; [|exact SC]. intros p2 Hp2. rewrite Rmin_left, Rmax_right in Hp2 by lra. assert (Hq : 0 < p2 < P2) by lra.
      destruct (E2 p2 Hq) as [X Y]. destruct (IN' (energy p2 (ms 2%nat))) as (_ & _ & T).
      { rewrite <- Ea, <- Eb. split; apply energy_strict; lra. }
      rewrite energy_inv in T by lra. rewrite (integrand_massive_in rs HD A Ms HO p1 p2); [|lra|lra|exact Y|exact T].
      fold ms e1 f. unfold opp, scal; cbn; unfold mult; cbn. ring.
    + apply is_RInt_zero_on. intros p2 Hp2. rewrite Rmin_left, Rmax_right in Hp2 by lra. assert (Hq : 0 < p2 < P2) by lra. apply OUT; [exact Hq|]. cbv zeta.
      destruct (E2 p2 Hq) as [X Y]. specialize (OU' (energy p2 (ms 2%nat)) X Y). rewrite energy_inv in OU' by lra. apply OU'. right. rewrite <- Eb. apply energy_strict. lra.
  - assert (Z23 : ms 2%nat + ms 3%nat = 0).
    { apply (s_threshold ms Hp Hs) in L. fold S in L. assert (Q : (ms 2%nat + ms 3%nat) ^ 2 = 0) by (pose proof (pow2_ge_0 (ms 2%nat + ms 3%nat)); lra). now apply Rsqr_0_uniq; unfold Rsqr; rewrite <- Q; ring. }
    assert (Z2 : ms 2%nat = 0) by lra. assert (Z3 : ms 3%nat = 0) by lra.
    assert (EP : 0 < ms 0%nat - e1) by (pose proof (below_m0 ms Hp Hs e1 L); lra).
    assert (EQ : ms 0%nat - e1 = p1).
    { assert (Q : (ms 0%nat - e1) ^ 2 = p1 ^ 2) by lra. apply (f_equal sqrt) in Q. rewrite !sqrt_pow2 in Q by lra. exact Q. }
    assert (EP2 : P2 = p1). { unfold P2. rewrite Z2, Z3, EQ. replace ((p1 - 0) ^ 2 - 0 ^ 2) with (p1 ^ 2) by ring. apply sqrt_pow2. lra. }
    assert (EL : e2_lo ms e1 = 0 /\ e2_hi ms e1 = p1).
    { unfold e2_lo, e2_hi. destruct (Req_EM_T _ 0) as [_|N]; [|contradiction]. unfold e1 at 2 4. rewrite energy_inv by lra. rewrite EQ. split; field. }
    destruct EL as [EL EH].
    pose proof (subst_energy (f e1) (ms 2%nat) 0 p1 (slice ms F e1) M2 ltac:(lra)) as SB. rewrite energy_rest in SB by exact M2.
    assert (EE : forall x, 0 <= x -> energy x (ms 2%nat) = x) by (intros x Hx; rewrite Z2; now apply energy_zero).
    rewrite EE in SB by lra. pose proof (slice_is ms f F HQ e1) as SL. rewrite EL, EH, <- Z2 in SL.
    specialize (SB (fun x _ => quad2_continuous f F e1 x HQ) SL).
    pose proof (is_RInt_scal (V := R_NormedModule) _ _ _ half_at_tip _ (is_RInt_opp (V := R_NormedModule) _ _ _ _ (is_RInt_scal (V := R_NormedModule) _ _ _ (velocity p1 (ms 1%nat)) _ SB))) as SC.
    rewrite EP2. eapply is_RInt_ext; [|exact SC]. intros p2 Hp2. rewrite Rmin_left, Rmax_right in Hp2 by lra.
    rewrite (integrand_massive_tip p1 p2); [|lra|lra|exact Z2|exact Z3|exact EQ].
    fold e1. unfold opp, scal; cbn; unfold mult; cbn. ring.
Qed.
Lemma massive_value st1 I : region_is ms f I -> point4_is rs A Ms Ff_vacuum (Some 0, st1) mn mx max_3 0 (- I).
Proof.
  intros HI. pose proof (m_pos rs HD) as Hp. fold ms in Hp. pose proof (m_sum rs HD) as Hs. fold ms in Hs.
  pose proof (e1_range ms Hp Hs) as ER. pose proof (Hp 1%nat) as M1. pose proof (Hp 2%nat) as M2. pose proof (Hp 3%nat) as M3.
  destruct (region_exists ms Hp Hs f F HQ) as (J & HJ & HR). rewrite (region_unique ms f I J ltac:(lra) HI HR). clear I HI HR.
  unfold point4_is. rewrite (massive_limits_1 rs HD). fold ms P1.
  eexists (fun p1 => _).
  assert (HP1 : 0 <= P1) by apply sqrt_pos. rewrite Rmin_left, Rmax_right by exact HP1. split; [exact inner_massive|].
  set (U := sqrt (e1_max ms ^ 2 - ms 1%nat ^ 2)). assert (EU : energy U (ms 1%nat) = e1_max ms) by (apply energy_of_root; lra).
  assert (U0 : 0 <= U) by apply sqrt_pos.
  assert (UP : U <= P1) by (apply root_energy_le; [exact U0|exact M1|lra|rewrite EU; lra]).
  replace (- J) with (- J + 0) by ring. apply (chasles_R _ 0 U P1).
  - pose proof (subst_energy (slice ms F) (ms 1%nat) 0 U J M1 (conj (Rle_refl 0) U0)) as SB. rewrite EU, energy_rest in SB by exact M1.
    specialize (SB (fun x Hx => slice_continuous ms Hp Hs f F HQ x (proj2 Hx)) HJ).
    eapply is_RInt_ext; [|exact (is_RInt_opp (V := R_NormedModule) _ _ _ _ SB)]. intros p1 H1. rewrite Rmin_left, Rmax_right in H1 by lra.
    cbv zeta. assert (L : energy p1 (ms 1%nat) < e1_max ms) by (rewrite <- EU; apply energy_strict; lra).
    destruct (Rlt_dec 0 _) as [_|N]; [|exfalso; apply N, (s_pos ms Hp Hs), L]. destruct (Rle_dec _ _) as [_|N]; [reflexivity|lra].
  - apply is_RInt_zero_on. intros p1 H1. rewrite Rmin_left, Rmax_right in H1 by lra.
    cbv zeta. assert (L : e1_max ms < energy p1 (ms 1%nat)) by (rewrite <- EU; apply energy_strict; lra).
    destruct (Rlt_dec 0 _) as [_|_]; [|destruct (Req_EM_T _ 0); [|reflexivity]]; destruct (Rle_dec _ _); lra.
Qed.
End value.
