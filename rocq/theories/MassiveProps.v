(* C178: the rate of a three-body decay at rest into massive products. *)
From Coq Require Import Reals Lra Psatz FunctionalExtensionality.
From Coquelicot Require Import Coquelicot.
From Verif Require Import Base FunctionalModel GridsModel DsModel BoundsModel BoundsProofs Integrate3Model Integrate4Model ScaleProofs Decay4Proofs ScaleProps Decay4Props DalitzSpec DalitzProofs MassiveSpec MassiveProofs Massive2Proofs Massive3Proofs Massive4Proofs Massive5Proofs.
Open Scope R_scope.

Definition masses (ss : nat -> species4) (n : nat) : R := s_mass (ss n).
(* the decay of the specie ss 0 into ss 1, ss 2, ss 3 *)
Definition decays_into (ss : nat -> species4) : Prop :=
  s_side (ss 0%nat) = (-1)%Z /\ s_side (ss 1%nat) = 1%Z /\ s_side (ss 2%nat) = 1%Z /\ s_side (ss 3%nat) = 1%Z /\
  (forall n, 0 <= masses ss n) /\ masses ss 1%nat + masses ss 2%nat + masses ss 3%nat < masses ss 0%nat.

Lemma masses_compiled a aT ss : aT <> 0 -> masses_of (compiled a aT ss) = fun n => a / aT * masses ss n.
Proof. intros H. apply functional_extensionality. intros n. unfold masses_of, masses. cbn. unfold compiled_mass. field. exact H. Qed.
Lemma decays_into_compiled a aT ss : 0 < a -> 0 < aT -> decays_into ss -> readable a aT ss -> massive_decay (compiled a aT ss).
Proof.
  intros Ha HT (S0 & S1 & S2 & S3 & HP & HS) HR. assert (HC : 0 < a / aT) by now apply Rdiv_lt_0_compat.
  assert (E : forall n, mass (compiled a aT ss n) = a / aT * masses ss n) by (intros n; cbn; unfold compiled_mass, masses; field; lra).
  unfold massive_decay, sides4_decay, sides_of. cbn [compiled plg compiled_leg side]. rewrite S0, S1, S2, S3. split; [now repeat split|]. split; [|split].
  - intros n. fold (compiled a aT ss n). rewrite E. apply Rmult_le_pos; [lra|apply HP].
  - rewrite !E. nra.
  - exact HR.
Qed.
Lemma massive_unique ms amp G G' : ms 1%nat <= e1_max ms -> massive_rate_is ms amp G -> massive_rate_is ms amp G' -> G = G'.
Proof. intros HE (I & HI & ->) (I' & HI' & ->). now rewrite (region_unique ms amp I I' HE HI HI'). Qed.

Section rate.
Variables (G_F a aT H : R) (ss : nat -> species4) (M : matrix_element) (Ms : list matrix_element) (x1 n2 x2 x3 : R).
Hypothesis (HG : G_F <> 0) (Ha : 0 < a) (HT : 0 < aT) (HH : H <> 0) (HD : decays_into ss) (HR : readable a aT ss).
Hypothesis HO : Forall (fun B => order_ok (order B)) (M :: Ms).
Let ms := masses ss.
Definition code_amp (e1 e2 : R) : R := if Req_EM_T (K M) 0 then amplitude_at ms (M :: Ms) e1 e2 else K M.
Definition code_factor : R := if Req_EM_T (K M) 0 then 1 else ms 0%nat * (aT / a) ^ 3.

Lemma code_rate x : contribution4 G_F a aT H ss M Ms Ff_vacuum 0 x1 n2 x2 x3 0 x <->
                    exists G, massive_rate_is ms code_amp G /\ x = - (G * code_factor / H).
Proof.
  pose proof PI_RGT_0 as HPI. pose proof (unit4_pos _ HG) as HU. assert (HC : 0 < a / aT) by now apply Rdiv_lt_0_compat.
  pose proof HD as (_ & _ & _ & _ & HP & HS). fold ms in HP, HS. pose proof (m0_pos ms HP HS) as P0. pose proof (e1_range ms HP HS) as ER.
  pose proof (decays_into_compiled a aT ss Ha HT HD HR) as HM.
  assert (HO' : Forall (fun B => order_ok (order B)) (compiled_M G_F M :: map (compiled_M G_F) Ms)).
  { apply (Forall_map (compiled_M G_F) (fun B => order_ok (order B)) (M :: Ms)). exact HO. }
  assert (HQ : exists F, quad2 code_amp F).
  { unfold code_amp. destruct (Req_EM_T (K M) 0); [exact (quad2_amplitude ms (M :: Ms) HO)|exact (quad2_const (K M))]. }
  destruct HQ as (F0 & HQ0). destruct (region_exists ms HP HS code_amp F0 HQ0) as (I & _ & HI).
  destruct (amp_quad (compiled a aT ss) (compiled_M G_F M) (map (compiled_M G_F) Ms) HO') as (F & HQ).
  set (k := if Req_EM_T (K M) 0 then (a / aT) ^ 3 / (unit4 G_F * ms 0%nat) else / unit4 G_F).
  assert (HZ : K (compiled_M G_F M) = 0 <-> K M = 0).
  { cbn. unfold Rdiv. split; [|intros ->; ring]. intros Z. apply Rmult_integral in Z. destruct Z as [|Z]; [assumption|]. apply Rinv_neq_0_compat in Z; [contradiction|lra]. }
  assert (HI' : region_is (masses_of (compiled a aT ss)) (massive_amp (compiled a aT ss) (compiled_M G_F M) (map (compiled_M G_F) Ms)) (k * (a / aT) ^ 2 * I)).
  { rewrite masses_compiled by lra. apply (region_scale ms (a / aT) HC code_amp); [lra| |exact HI].
    intros x' y'. unfold massive_amp, code_amp, k. rewrite masses_compiled by lra.
    change (compiled_M G_F M :: map (compiled_M G_F) Ms) with (map (compiled_M G_F) (M :: Ms)). fold ms.
    destruct (Req_EM_T (K (compiled_M G_F M)) 0) as [Z|N], (Req_EM_T (K M) 0) as [Z'|N']; try tauto.
    - rewrite amplitude_compiled. rewrite amplitude_scale. field. repeat split; lra.
    - cbn [compiled_M K]. field. lra. }
  pose proof (massive_value (compiled a aT ss) HM (compiled_M G_F M) (map (compiled_M G_F) Ms) HO' F HQ (bound4 aT n2) (bound4 aT x2) (x3 / aT) (bound4 aT x1) _ HI') as HV.
  assert (HB : (bound4 aT 0, bound4 aT x1) = (Some 0, bound4 aT x1)) by (unfold bound4; f_equal; f_equal; field; lra).
  assert (HCm : compiled_momentum aT 0 = 0) by (unfold compiled_momentum; field; lra).
  assert (HE : - (k * (a / aT) ^ 2 * I) * constant4 G_F a aT H = - (I / ((2 * PI) ^ 3 * (8 * ms 0%nat)) * code_factor / H)).
  { unfold constant4, k, code_factor. set (u := unit4 G_F) in *. destruct (Req_EM_T (K M) 0); field; repeat split; lra. }
  assert (HA : massive_rate_is ms code_amp (I / ((2 * PI) ^ 3 * (8 * ms 0%nat)))) by (exists I; now split).
  unfold contribution4. rewrite HB, HCm. split.
  - intros (J & HJ & ->). eexists. split; [exact HA|]. rewrite (point4_unique _ _ _ _ _ _ _ _ _ _ _ HJ HV). exact HE.
  - intros (G & HGm & ->). rewrite (massive_unique ms code_amp _ _ (proj1 ER) HGm HA). eexists. split; [exact HV|]. symmetry. exact HE.
Qed.
End rate.
Lemma massive_rate_ext ms f g G : (forall x y, f x y = g x y) -> massive_rate_is ms f G -> massive_rate_is ms g G.
Proof.
  intros E (I & (h & H1 & H2) & ->). exists I. split; [|reflexivity]. exists h. split; [|exact H2]. intros e1 He. eapply is_RInt_ext; [|exact (H1 e1 He)]. intros x _. apply E.
Qed.

(* The integral times the constant is minus the textbook rate over H, whatever
   the masses, the matrix elements, the unit of momentum and the scale factor. *)
Theorem C178_massive_rate : forall G_F a aT H ss M Ms max_1 min_2 max_2 max_3,
  G_F <> 0 -> 0 < a -> 0 < aT -> H <> 0 -> decays_into ss -> readable a aT ss -> Forall (fun B => order_ok (order B)) (M :: Ms) -> K M = 0 ->
  forall x, contribution4 G_F a aT H ss M Ms Ff_vacuum 0 max_1 min_2 max_2 max_3 0 x <->
            exists G, massive_rate_is (masses ss) (amplitude_at (masses ss) (M :: Ms)) G /\ x = - (G / H).
Proof.
  intros G_F a aT H ss M Ms x1 n2 x2 x3 HG Ha HT HH HD HR HO HK x.
  rewrite (code_rate G_F a aT H ss M Ms x1 n2 x2 x3 HG Ha HT HH HD HR HO).
  assert (HF : code_factor a aT ss M = 1) by (unfold code_factor; destruct (Req_EM_T (K M) 0); [reflexivity|contradiction]).
  assert (HA : forall e1 e2, code_amp ss M Ms e1 e2 = amplitude_at (masses ss) (M :: Ms) e1 e2) by (intros; unfold code_amp; destruct (Req_EM_T (K M) 0); [reflexivity|contradiction]).
  rewrite HF. split; intros (G & HGm & ->); exists G; (split; [|unfold Rdiv; ring]); eapply massive_rate_ext; [..|exact HGm| |exact HGm]; intros; now rewrite HA.
Qed.
Print Assumptions C178_massive_rate.

(* the integral always has a value *)
Theorem C178_rate_exists : forall G_F a aT H ss M Ms max_1 min_2 max_2 max_3,
  G_F <> 0 -> 0 < a -> 0 < aT -> H <> 0 -> decays_into ss -> readable a aT ss -> Forall (fun B => order_ok (order B)) (M :: Ms) ->
  exists! x, contribution4 G_F a aT H ss M Ms Ff_vacuum 0 max_1 min_2 max_2 max_3 0 x.
Proof.
  intros G_F a aT H ss M Ms x1 n2 x2 x3 HG Ha HT HH HD HR HO. pose proof HD as (_ & _ & _ & _ & HP & HS). pose proof (e1_range _ HP HS) as ER.
  assert (HQ : exists F, quad2 (code_amp ss M Ms) F).
  { unfold code_amp. destruct (Req_EM_T (K M) 0); [exact (quad2_amplitude _ (M :: Ms) HO)|exact (quad2_const (K M))]. }
  destruct HQ as (F & HQ). destruct (region_exists _ HP HS _ F HQ) as (I & _ & HI).
  pose proof (code_rate G_F a aT H ss M Ms x1 n2 x2 x3 HG Ha HT HH HD HR HO) as CR.
  eexists. split.
  - apply CR. eexists. split; [exists I; split; [exact HI|reflexivity]|reflexivity].
  - intros y Hy. apply CR in Hy. destruct Hy as (G & HGm & ->).
    rewrite (massive_unique _ _ G (I / ((2 * PI) ^ 3 * (8 * masses ss 0%nat))) (proj1 ER) HGm); [reflexivity|]. exists I. now split.
Qed.
Print Assumptions C178_rate_exists.

(* constant squared amplitude: the rate from the area of the Dalitz plot, times
   m (aT/a)^3, an energy to the fourth power *)
Theorem C178_constant_amplitude : forall G_F a aT H ss M Ms max_1 min_2 max_2 max_3 A,
  G_F <> 0 -> 0 < a -> 0 < aT -> H <> 0 -> decays_into ss -> readable a aT ss -> Forall (fun B => order_ok (order B)) (M :: Ms) -> K M <> 0 ->
  dalitz_area_is (masses ss 0%nat) (masses ss 2%nat) (masses ss 3%nat) (masses ss 1%nat) A ->
  forall x, contribution4 G_F a aT H ss M Ms Ff_vacuum 0 max_1 min_2 max_2 max_3 0 x <->
            x = - (three_body_rate (K M) A (masses ss 0%nat) * (masses ss 0%nat * (aT / a) ^ 3) / H).
Proof.
  intros G_F a aT H ss M Ms x1 n2 x2 x3 A HG Ha HT HH HD HR HO HK HA x. pose proof HD as (_ & _ & _ & _ & HP & HS). pose proof (e1_range _ HP HS) as ER. pose proof (m0_pos _ HP HS) as P0. pose proof PI_RGT_0.
  rewrite (code_rate G_F a aT H ss M Ms x1 n2 x2 x3 HG Ha HT HH HD HR HO).
  assert (HF : code_factor a aT ss M = masses ss 0%nat * (aT / a) ^ 3) by (unfold code_factor; destruct (Req_EM_T (K M) 0); [contradiction|reflexivity]).
  assert (HC : massive_rate_is (masses ss) (code_amp ss M Ms) (three_body_rate (K M) A (masses ss 0%nat))).
  { exists (K M * A / (4 * masses ss 0%nat ^ 2)). split; [|unfold three_body_rate; field; lra].
    pose proof (region_area (masses ss) (K M) A HP HS HA) as (g & G1 & G2). exists g. split; [|exact G2]. intros e1 He. eapply is_RInt_ext; [|exact (G1 e1 He)].
    intros y _. unfold code_amp. destruct (Req_EM_T (K M) 0); [contradiction|reflexivity]. }
  rewrite HF. split.
  - intros (G & HGm & ->). now rewrite (massive_unique _ _ _ _ (proj1 ER) HGm HC).
  - intros ->. eexists. split; [exact HC|reflexivity].
Qed.
Print Assumptions C178_constant_amplitude.

(* decay of the muon, with the mass of the electron: products 1 and 2 are the
   neutrinos, product 3 the electron *)
Definition phase_space (x : R) : R := 1 - 8 * x + 8 * x ^ 3 - x ^ 4 - 12 * x ^ 2 * ln x.
Lemma muon_region ms k : ms 1%nat = 0 -> ms 2%nat = 0 -> 0 < ms 3%nat < ms 0%nat ->
  region_is ms (amplitude_at ms [mkM (0, 1, 2, 3)%nat k 0 0]) (k * ms 0%nat ^ 6 / 192 * phase_space (ms 3%nat ^ 2 / ms 0%nat ^ 2)).
Proof.
  intros Z1 Z2 [H3 H0]. set (m := ms 0%nat) in *. set (q := ms 3%nat) in *.
  assert (Hq : q ^ 2 < m ^ 2) by (apply sqr_lt'; lra). assert (Hq0 : 0 < q ^ 2) by (apply pow_lt; lra).
  assert (EM : e1_max ms = (m ^ 2 - q ^ 2) / (2 * m)) by (unfold e1_max; rewrite Z1, Z2; fold m q; field; lra).
  assert (EM0 : 0 < e1_max ms) by (rewrite EM; apply Rdiv_lt_0_compat; lra).
  assert (ST : forall e1, e1 <= e1_max ms -> q ^ 2 <= m ^ 2 - 2 * m * e1).
  { intros e1 He. rewrite EM in He. assert (T : 0 < 2 * m) by lra. apply (proj2 (Rle_div_r _ _ _ T)) in He. lra. }
  set (g e1 := k * m * e1 ^ 2 * (m ^ 2 - 2 * m * e1 - q ^ 2) ^ 2 / (2 * (m ^ 2 - 2 * m * e1))).
  exists g. rewrite Z1. split.
  - intros e1 He. specialize (ST e1 ltac:(lra)). set (s := m ^ 2 - 2 * m * e1) in *.
    assert (ER : recoil m 0 e1 = s) by (unfold recoil, s; ring).
    assert (EH : e2_half ms e1 = e1 * (s - q ^ 2) / (2 * s)).
    { unfold e2_half. cbv zeta. rewrite Z1, Z2. fold m q. rewrite ER. replace (e1 ^ 2 - 0 ^ 2) with (e1 ^ 2) by ring. rewrite sqrt_pow2 by lra.
      replace (kallen s (0 ^ 2) (q ^ 2)) with ((s - q ^ 2) ^ 2) by (unfold kallen; ring). rewrite sqrt_pow2 by lra. reflexivity. }
    set (c := k * (m * e1) * ((s - q ^ 2) / 2)).
    pose proof (is_RInt_const (V := R_NormedModule) (e2_mid ms e1 - e2_half ms e1) (e2_mid ms e1 + e2_half ms e1) c) as C.
    unfold scal in C; cbn in C; unfold mult in C; cbn in C.
    replace (g e1) with ((e2_mid ms e1 + e2_half ms e1 - (e2_mid ms e1 - e2_half ms e1)) * c).
    + eapply is_RInt_ext; [|exact C]. intros e2 _. cbv beta. unfold amplitude_at, four_dot. cbn [fold_right order K1 K2 Nat.eqb Nat.sub share]. rewrite Z1, Z2. fold m q. rewrite ER. unfold c. match goal with |- ?u = ?v => change (@eq R u v) end. field.
    + replace (e2_mid ms e1 + e2_half ms e1 - (e2_mid ms e1 - e2_half ms e1)) with (2 * e2_half ms e1) by ring. rewrite EH. unfold g, c. fold s. field. lra.
  - set (P s := m ^ 4 * s ^ 2 / 2 - 2 * q ^ 2 * m ^ 4 * s + m ^ 4 * q ^ 4 * ln s - 2 * m ^ 2 * s ^ 3 / 3 + 2 * q ^ 2 * m ^ 2 * s ^ 2 - 2 * m ^ 2 * q ^ 4 * s + s ^ 4 / 4 - 2 * q ^ 2 * s ^ 3 / 3 + q ^ 4 * s ^ 2 / 2).
    set (Q e1 := - (k / (16 * m ^ 2)) * P (m ^ 2 - 2 * m * e1)).
    replace (k * m ^ 6 / 192 * phase_space (q ^ 2 / m ^ 2)) with (Q (e1_max ms) - Q 0).
    + apply (is_RInt_derive (V := R_CompleteNormedModule) Q g).
      * intros x Hx. rewrite Rmin_left, Rmax_right in Hx by lra. specialize (ST x ltac:(lra)). unfold Q, P, g. auto_derive; [lra|]. field. lra.
      * intros x Hx. rewrite Rmin_left, Rmax_right in Hx by lra. specialize (ST x ltac:(lra)).
        apply (ex_derive_continuous (V := R_NormedModule)). unfold g. auto_derive. lra.
    + unfold Q. replace (m ^ 2 - 2 * m * e1_max ms) with (q ^ 2) by (rewrite EM; field; lra). replace (m ^ 2 - 2 * m * 0) with (m ^ 2) by ring.
      unfold P, phase_space. rewrite ln_div by lra. field. lra.
Qed.
Theorem C178_muon_rate : forall G_F a aT H ss x1 n2 x2 x3 y,
  G_F <> 0 -> 0 < a -> 0 < aT -> H <> 0 -> decays_into ss -> readable a aT ss -> masses ss 1%nat = 0 -> masses ss 2%nat = 0 -> 0 < masses ss 3%nat ->
  contribution4 G_F a aT H ss (mkM (0, 1, 2, 3)%nat (128 * G_F ^ 2) 0 0) [] Ff_vacuum 0 x1 n2 x2 x3 0 y ->
  let m := masses ss 0%nat in
  modifiers false 4 1 (a * m) true y = - (G_F ^ 2 * m ^ 5 / (192 * PI ^ 3) * phase_space (masses ss 3%nat ^ 2 / m ^ 2) / H).
Proof.
  intros G_F a aT H ss x1 n2 x2 x3 y HG Ha HT HH HD HR Z1 Z2 H3 HY. cbv zeta. pose proof PI_RGT_0.
  pose proof HD as (_ & _ & _ & _ & HP & HS). pose proof (e1_range _ HP HS) as ER. pose proof (m0_pos _ HP HS) as P0.
  assert (HO : order_ok (0, 1, 2, 3)%nat) by exact ex_order.
  apply (C178_massive_rate G_F a aT H ss _ [] x1 n2 x2 x3 HG Ha HT HH HD HR) in HY; [|now apply Forall_cons|reflexivity].
  destruct HY as (G & HGm & ->).
  rewrite (massive_unique _ _ G _ (proj1 ER) HGm (ex_intro _ _ (conj (muon_region (masses ss) (128 * G_F ^ 2) Z1 Z2 ltac:(lra)) eq_refl))).
  unfold modifiers. field. lra.
Qed.
Print Assumptions C178_muon_rate.

Definition massive_species (m0 m1 m2 m3 : R) (n : nat) : species4 :=
  match n with O => mkSpecies (-1) m0 [] [] 1 true 1 | 1%nat => mkSpecies 1 m1 [] [] 1 true 1 | 2%nat => mkSpecies 1 m2 [] [] 1 true 1 | _ => mkSpecies 1 m3 [] [] 1 true 1 end.
Lemma massive_species_ok m0 m1 m2 m3 a aT : 0 <= m1 -> 0 <= m2 -> 0 <= m3 -> m1 + m2 + m3 < m0 -> decays_into (massive_species m0 m1 m2 m3) /\ readable a aT (massive_species m0 m1 m2 m3).
Proof.
  intros H1 H2 H3 HS. split.
  - unfold decays_into. cbn [massive_species s_side]. repeat split; [|exact HS]. intros [|[|[|n]]]; unfold masses; cbn; lra.
  - intros [|[|[|n]]] p _; eexists; reflexivity.
Qed.
(* three massive products; the lightest, in the middle of its range, leaves the second an interval of energies *)
Example C178_example : let ss := massive_species 10 1 2 3 in decays_into ss /\ readable 1 2 ss /\ e1_max (masses ss) = 19 / 5 /\ 0 < e2_half (masses ss) 2 /\
  exists x, contribution4 1 1 2 1 ss ex_M [] Ff_vacuum 0 10 0 10 10 0 x.
Proof.
  cbv zeta. destruct (massive_species_ok 10 1 2 3 1 2) as [D R]; [lra..|]. split; [exact D|]. split; [exact R|]. split; [unfold e1_max, masses; cbn; lra|]. split.
  - unfold e2_half, recoil, masses, kallen. cbn -[pow]. apply Rdiv_lt_0_compat; [|lra]. apply Rmult_lt_0_compat; apply sqrt_lt_R0; lra.
  - destruct (C178_rate_exists 1 1 2 1 (massive_species 10 1 2 3) ex_M [] 10 0 10 10) as (x & Hx & _); try lra; try assumption; [|now exists x].
    apply Forall_cons; [exact ex_order|apply Forall_nil].
Qed.
(* an electron of half the mass of the muon *)
Example C178_muon_example : exists y, contribution4 1 1 2 1 (massive_species 2 0 0 1) (mkM (0, 1, 2, 3)%nat (128 * 1 ^ 2) 0 0) [] Ff_vacuum 0 10 0 10 10 0 y /\
  modifiers false 4 1 (1 * 2) true y = - (32 / (192 * PI ^ 3) * (- 225 / 256 + 3 / 2 * ln 2)).
Proof.
  destruct (massive_species_ok 2 0 0 1 1 2) as [D R]; [lra..|].
  destruct (C178_rate_exists 1 1 2 1 (massive_species 2 0 0 1) (mkM (0, 1, 2, 3)%nat (128 * 1 ^ 2) 0 0) [] 10 0 10 10) as (y & Hy & _); try lra; try assumption.
  { apply Forall_cons; [exact ex_order|apply Forall_nil]. }
  exists y. split; [exact Hy|].
  pose proof (C178_muon_rate 1 1 2 1 (massive_species 2 0 0 1) 10 0 10 10 y) as E. cbv zeta in E. unfold masses in E. cbn [massive_species s_mass] in E. rewrite E; try assumption; try lra; try reflexivity.
    unfold phase_space. replace (1 ^ 2 / 2 ^ 2) with (/ (2 * 2)) by lra. rewrite ln_Rinv, ln_mult by lra. pose proof PI_RGT_0. field. lra.
Qed.
