(* C138: the rate of a three-body decay at rest into massless products. *)
From Coq Require Import Reals Lra Psatz.
From Coquelicot Require Import Coquelicot.
From Verif Require Import Base FunctionalModel GridsModel DsModel BoundsModel Integrate3Model Integrate4Model ScaleProofs Decay4Proofs ScaleProps.
Open Scope R_scope.

(* Specification: kinematics of the decay in the rest frame. e names the energies
   of the three massless products; they add up to m. *)
Definition dot (m : R) (e : nat -> R) (i j : nat) : R :=
  if (i =? 0)%nat then m * e j else if (j =? 0)%nat then m * e i
  else (m ^ 2 - 2 * m * e (6 - i - j)%nat) / 2.
Definition rest_mass (m : R) (i : nat) : R := if (i =? 0)%nat then m else 0.
Definition energies (m e1 e2 : R) (i : nat) : R := match i with 1%nat => e1 | 2%nat => e2 | _ => m - e1 - e2 end.
(* sum of K1 (pi.pj)(pk.pl) + K2 mi mj (pk.pl) *)
Definition amplitude (m : R) (Ms : list matrix_element) (e1 e2 : R) : R :=
  fold_right (fun A s => let '(i, j, k, l) := order A in let d := dot m (energies m e1 e2) in
                         K1 A * d i j * d k l + K2 A * rest_mass m i * rest_mass m j * d k l + s) 0 Ms.
(* Dalitz: Gamma = 1/((2 pi)^3 8 m) times the integral of |M|^2 over the energies
   of two of the products *)
Definition dalitz_is (m : R) (amp : R -> R -> R) (G : R) : Prop :=
  exists g I, (forall e1, 0 < e1 < m / 2 -> is_RInt (amp e1) (m / 2 - e1) (m / 2) (g e1)) /\ is_RInt g 0 (m / 2) I /\
              G = I / ((2 * PI) ^ 3 * (8 * m)).

(* the decay of the specie ss 0, of mass m, into massless ss 1, ss 2, ss 3 *)
Definition decays (ss : nat -> species4) (m : R) : Prop :=
  s_side (ss 0%nat) = (-1)%Z /\ s_side (ss 1%nat) = 1%Z /\ s_side (ss 2%nat) = 1%Z /\ s_side (ss 3%nat) = 1%Z /\
  s_mass (ss 0%nat) = m /\ s_mass (ss 1%nat) = 0 /\ s_mass (ss 2%nat) = 0 /\ s_mass (ss 3%nat) = 0.
(* every occupation the integral asks for has a value *)
Definition readable (a aT : R) (ss : nat -> species4) : Prop := forall n p, 0 <= p -> exists x, occ (compiled a aT ss n) p = Ok x.

Lemma decays_compiled a aT ss m : 0 < a -> 0 < aT -> decays ss m -> readable a aT ss -> massless_decay (compiled a aT ss) (m * a / aT).
Proof.
  intros Ha HT (S0 & S1 & S2 & S3 & M0 & M1 & M2 & M3) HR. unfold massless_decay, sides4_decay, sides_of.
  cbn [compiled plg mass compiled_leg side]. rewrite S0, S1, S2, S3, M0, M1, M2, M3. unfold compiled_mass.
  repeat split; try (field; lra). exact HR.
Qed.
Lemma dalitz_unique m amp G G' : dalitz_is m amp G -> dalitz_is m amp G' -> 0 < m -> G = G'.
Proof.
  intros (g & I & HG & HI & ->) (g' & I' & HG' & HI' & ->) Hm. f_equal.
  apply (is_RInt_ext _ g') in HI.
  - rewrite <- (is_RInt_unique (V := R_CompleteNormedModule) _ _ _ _ HI). now apply (is_RInt_unique (V := R_CompleteNormedModule)).
  - intros x Hx. rewrite Rmin_left, Rmax_right in Hx by lra.
    rewrite <- (is_RInt_unique (V := R_CompleteNormedModule) _ _ _ _ (HG x Hx)). now apply (is_RInt_unique (V := R_CompleteNormedModule)), HG'.
Qed.
Lemma amplitude_kernel m Ms e1 e2 : Forall (fun B => order_ok (order B)) Ms -> amplitude m Ms e1 e2 = m * rest_kernel m Ms e1 e2.
Proof.
  induction 1 as [|A Ms HA HMs IH]; cbn [amplitude rest_kernel fold_right]; [ring|].
  fold (amplitude m Ms e1 e2) (rest_kernel m Ms e1 e2). rewrite IH. apply order_cases in HA. cbn [In] in HA.
  repeat match type of HA with _ \/ _ => destruct HA as [<-|HA] | False => contradiction end;
  unfold dot, rest_mass, partner, pairing, energies; cbn [Nat.eqb Nat.mul Nat.add Nat.sub]; field.
Qed.
Lemma amplitude_rate m Ms : 0 < m -> Forall (fun B => order_ok (order B)) Ms ->
  dalitz_is m (amplitude m Ms) (sum_K1 Ms * m ^ 5 / (12288 * PI ^ 3)).
Proof.
  intros Hm HO. pose proof PI_RGT_0 as HPI.
  exists (fun u => m * fold_right (fun A s => K1 A * inner_pairing m u (partner (order A)) + s) 0 Ms), (m * (sum_K1 Ms * (m ^ 5 / 192))).
  repeat split.
  - intros e1 _. eapply is_RInt_ext; [|exact (is_RInt_scal (V := R_NormedModule) _ _ _ m _ (rest_kernel_int m Ms e1 HO))].
    intros x _. symmetry. now apply amplitude_kernel.
  - exact (is_RInt_scal (V := R_NormedModule) _ _ _ m _ (rest_kernel_int2 m Ms HO)).
  - field. lra.
Qed.
Lemma sum_compiled G_F Ms : sum_K1 (map (compiled_M G_F) Ms) = sum_K1 Ms / unit4 G_F.
Proof. induction Ms as [|A Ms IH]; cbn [map sum_K1 fold_right]; [unfold Rdiv; ring|]. fold (sum_K1 (map (compiled_M G_F) Ms)) (sum_K1 Ms). rewrite IH. cbn. unfold Rdiv. ring. Qed.
Lemma unit4_pos G_F : G_F <> 0 -> 0 < unit4 G_F.
Proof. intros. unfold unit4. assert (0 < G_F ^ 2) by (apply pow2_gt_0; assumption). lra. Qed.

(* The integral times the constant is minus the textbook rate over H, whatever
   the matrix elements, the unit of momentum and the scale factor. *)
Theorem C138_three_body_rate : forall G_F a aT H ss m M Ms max_1 min_2 max_2 max_3,
  G_F <> 0 -> 0 < a -> 0 < aT -> H <> 0 -> 0 < m -> decays ss m -> readable a aT ss -> Forall (fun B => order_ok (order B)) (M :: Ms) -> K M = 0 ->
  forall x, contribution4 G_F a aT H ss M Ms Ff_vacuum 0 max_1 min_2 max_2 max_3 0 x <->
            exists G, dalitz_is m (amplitude m (M :: Ms)) G /\ x = - (G / H).
Proof.
  intros G_F a aT H ss m M Ms x1 n2 x2 x3 HG Ha HT HH Hm HD HR HO HK x. pose proof PI_RGT_0 as HPI. pose proof (unit4_pos _ HG) as HU.
  assert (HM : 0 < m * a / aT) by (apply Rdiv_lt_0_compat; nra).
  pose proof (rest_value (compiled a aT ss) (m * a / aT) (compiled_M G_F M) (map (compiled_M G_F) Ms) (bound4 aT n2) (bound4 aT x2) (x3 / aT) (bound4 aT x1)
    (decays_compiled a aT ss m Ha HT HD HR) HM) as HV.
  assert (HO' : Forall (fun B => order_ok (order B)) (compiled_M G_F M :: map (compiled_M G_F) Ms)).
  { apply (Forall_map (compiled_M G_F) (fun B => order_ok (order B)) (M :: Ms)). exact HO. }
  specialize (HV HO'). destruct (Req_EM_T (K (compiled_M G_F M)) 0) as [_|NZ]; [|exfalso; apply NZ; cbn; rewrite HK; unfold Rdiv; ring].
  change (compiled_M G_F M :: map (compiled_M G_F) Ms) with (map (compiled_M G_F) (M :: Ms)) in HV. rewrite sum_compiled in HV.
  pose proof (amplitude_rate m (M :: Ms) Hm HO) as HA.
  assert (HB : (bound4 aT 0, bound4 aT x1) = (Some 0, bound4 aT x1)) by (unfold bound4; f_equal; f_equal; field; lra).
  assert (HC : compiled_momentum aT 0 = 0) by (unfold compiled_momentum; field; lra).
  assert (HE : - (sum_K1 (M :: Ms) / unit4 G_F * ((m * a / aT) ^ 5 / 192)) * constant4 G_F a aT H = - (sum_K1 (M :: Ms) * m ^ 5 / (12288 * PI ^ 3) / H)).
  { unfold constant4. set (s := sum_K1 (M :: Ms)). set (u := unit4 G_F) in *. field. repeat split; lra. }
  unfold contribution4. rewrite HB, HC. split.
  - intros (I & HI & ->). exists (sum_K1 (M :: Ms) * m ^ 5 / (12288 * PI ^ 3)). split; [exact HA|].
    rewrite (point4_unique _ _ _ _ _ _ _ _ _ _ _ HI HV). exact HE.
  - intros (G & HGm & ->). rewrite (dalitz_unique _ _ _ _ HGm HA Hm). eexists. split; [exact HV|]. symmetry. exact HE.
Qed.
(* in closed form: with |M|^2 = 128 G_F^2 (p0.pi)(pj.pk) and a Dirac fermion of 4
   degrees of freedom, G_F^2 m^5 / (192 pi^3) *)
Theorem C138_muon_rate : forall G_F a aT H ss m o x1 n2 x2 x3 y,
  G_F <> 0 -> 0 < a -> 0 < aT -> H <> 0 -> 0 < m -> decays ss m -> readable a aT ss -> order_ok o ->
  contribution4 G_F a aT H ss (mkM o (128 * G_F ^ 2) 0 0) [] Ff_vacuum 0 x1 n2 x2 x3 0 y ->
  modifiers false 4 1 (a * m) true y = - (G_F ^ 2 * m ^ 5 / (192 * PI ^ 3) / H).
Proof.
  intros G_F a aT H ss m o x1 n2 x2 x3 y HG Ha HT HH Hm HD HR HO HY. pose proof PI_RGT_0.
  apply (C138_three_body_rate G_F a aT H ss m _ [] x1 n2 x2 x3 HG Ha HT HH Hm HD HR) in HY; [|now apply Forall_cons|reflexivity].
  destruct HY as (G & HGm & ->).
  assert (HF : Forall (fun B => order_ok (order B)) [mkM o (128 * G_F ^ 2) 0 0]) by (apply Forall_cons; [exact HO|apply Forall_nil]).
  rewrite (dalitz_unique _ _ _ _ HGm (amplitude_rate m _ Hm HF) Hm).
  unfold modifiers. cbn [sum_K1 fold_right K1]. field. lra.
Qed.
Example C138_example : exists ss, decays ss 1 /\ readable 1 1 ss /\ order_ok (0, 3, 1, 2)%nat /\ dalitz_is 1 (amplitude 1 [mkM (0, 3, 1, 2)%nat 1 0 0]) (/ (12288 * PI ^ 3)).
Proof.
  assert (HO : order_ok (0, 3, 1, 2)%nat).
  { split; [|repeat split; repeat constructor]. repeat constructor; cbn; intuition discriminate. }
  exists ex_species. split; [repeat split|]. split; [intros [|n] p _; eexists; reflexivity|]. split; [exact HO|].
  assert (HF : Forall (fun B => order_ok (order B)) [mkM (0, 3, 1, 2)%nat 1 0 0]) by (apply Forall_cons; [exact HO|apply Forall_nil]).
  pose proof (amplitude_rate 1 [mkM (0, 3, 1, 2)%nat 1 0 0] Rlt_0_1 HF) as HA.
  pose proof PI_RGT_0. replace (/ (12288 * PI ^ 3)) with (sum_K1 [mkM (0, 3, 1, 2)%nat 1 0 0] * 1 ^ 5 / (12288 * PI ^ 3)) by (cbn; field; lra). exact HA.
Qed.

(* With a constant squared amplitude K the textbook gives K m / (512 pi^3), *)
Lemma constant_rate m k : 0 < m -> dalitz_is m (fun _ _ => k) (k * m / (512 * PI ^ 3)).
Proof.
  intros Hm. pose proof PI_RGT_0. exists (fun e1 => e1 * k), (k * m ^ 2 / 8). repeat split.
  - intros e1 _. pose proof (is_RInt_const (m / 2 - e1) (m / 2) k) as C. unfold scal in C; cbn in C; unfold mult in C; cbn in C.
    now replace (m / 2 - (m / 2 - e1)) with e1 in C by ring.
  - pose proof (is_RInt_anti (fun u => u ^ 2 / 2 * k) (fun u => u * k) 0 (m / 2)) as C.
    match type of C with _ -> _ -> is_RInt _ _ _ ?x => replace (k * m ^ 2 / 8) with x by field end.
    apply C; intros x.
    + auto_derive; [trivial|]. field.
    + apply (ex_derive_continuous (fun u : R => u * k)). auto_derive. trivial.
  - field. lra.
Qed.
(* and the code that rate times m (aT/a)^3, an energy to the fourth power *)
Theorem C138_constant_amplitude : forall G_F a aT H ss m M Ms max_1 min_2 max_2 max_3,
  G_F <> 0 -> 0 < a -> 0 < aT -> H <> 0 -> 0 < m -> decays ss m -> readable a aT ss -> Forall (fun B => order_ok (order B)) (M :: Ms) -> K M <> 0 ->
  forall x, contribution4 G_F a aT H ss M Ms Ff_vacuum 0 max_1 min_2 max_2 max_3 0 x <->
            exists G, dalitz_is m (fun _ _ => K M) G /\ x = - (G * (m * (aT / a) ^ 3) / H).
Proof.
  intros G_F a aT H ss m M Ms x1 n2 x2 x3 HG Ha HT HH Hm HD HR HO HK x. pose proof PI_RGT_0 as HPI. pose proof (unit4_pos _ HG) as HU.
  assert (HM : 0 < m * a / aT) by (apply Rdiv_lt_0_compat; nra).
  pose proof (rest_value (compiled a aT ss) (m * a / aT) (compiled_M G_F M) (map (compiled_M G_F) Ms) (bound4 aT n2) (bound4 aT x2) (x3 / aT) (bound4 aT x1)
    (decays_compiled a aT ss m Ha HT HD HR) HM) as HV.
  assert (HO' : Forall (fun B => order_ok (order B)) (compiled_M G_F M :: map (compiled_M G_F) Ms)).
  { apply (Forall_map (compiled_M G_F) (fun B => order_ok (order B)) (M :: Ms)). exact HO. }
  specialize (HV HO'). destruct (Req_EM_T (K (compiled_M G_F M)) 0) as [Z|_].
  { exfalso. apply HK. cbn in Z. unfold Rdiv in Z. apply Rmult_integral in Z. destruct Z as [|Z]; [assumption|]. apply Rinv_neq_0_compat in Z; [contradiction|lra]. }
  pose proof (constant_rate m (K M) Hm) as HA.
  assert (HB : (bound4 aT 0, bound4 aT x1) = (Some 0, bound4 aT x1)) by (unfold bound4; f_equal; f_equal; field; lra).
  assert (HC : compiled_momentum aT 0 = 0) by (unfold compiled_momentum; field; lra).
  assert (HE : - (K (compiled_M G_F M) * (m * a / aT) ^ 2 / 8) * constant4 G_F a aT H = - (K M * m / (512 * PI ^ 3) * (m * (aT / a) ^ 3) / H)).
  { unfold constant4. cbn [compiled_M K]. set (u := unit4 G_F) in *. field. repeat split; lra. }
  unfold contribution4. rewrite HB, HC. split.
  - intros (I & HI & ->). eexists. split; [exact HA|]. rewrite (point4_unique _ _ _ _ _ _ _ _ _ _ _ HI HV). exact HE.
  - intros (G & HGm & ->). rewrite (dalitz_unique _ _ _ _ HGm HA Hm). eexists. split; [exact HV|]. symmetry. exact HE.
Qed.
Theorem C138_constant_amplitude_refuted :
  ~ (forall G_F a aT H ss m M Ms max_1 min_2 max_2 max_3 x,
       G_F <> 0 -> 0 < a -> 0 < aT -> H <> 0 -> 0 < m -> decays ss m -> readable a aT ss -> Forall (fun B => order_ok (order B)) (M :: Ms) -> K M <> 0 ->
       contribution4 G_F a aT H ss M Ms Ff_vacuum 0 max_1 min_2 max_2 max_3 0 x ->
       exists G, dalitz_is m (fun _ _ => K M) G /\ x = - (G / H)).
Proof.
  intros HA. pose proof PI_RGT_0 as HPI. assert (HP3 : 0 < PI ^ 3) by (now apply pow_lt).
  assert (C2 : contribution4 1 1 2 1 ex_species ex_MK [] Ff_vacuum 0 10 0 10 10 0 (- (2 ^ 3 / (512 * PI ^ 3)))) by (apply ex_contribution_K; lra).
  apply (HA _ _ _ _ _ 1) in C2; try lra.
  - destruct C2 as (G & HG & E). rewrite (dalitz_unique _ _ _ _ HG (constant_rate 1 _ Rlt_0_1) Rlt_0_1) in E. cbn [K ex_MK] in E.
    assert (0 < 1 / (512 * PI ^ 3)) by (apply Rdiv_lt_0_compat; lra).
    assert (2 ^ 3 / (512 * PI ^ 3) = 8 * (1 / (512 * PI ^ 3))) by (field; lra).
    assert (1 * 1 / (512 * PI ^ 3) / 1 = 1 / (512 * PI ^ 3)) by (field; lra). lra.
  - repeat split.
  - intros [|n] p _; eexists; reflexivity.
  - apply Forall_cons; [exact ex_order|apply Forall_nil].
  - cbn. lra.
Qed.
Print Assumptions C138_three_body_rate.
Print Assumptions C138_muon_rate.
Print Assumptions C138_constant_amplitude.
Print Assumptions C138_constant_amplitude_refuted.
