(* C140, C141: the widths of sterile neutrinos into mesons. *)
From Coq Require Import Reals Lra Psatz.
From Coquelicot Require Import Coquelicot.
From Verif Require Import Base FunctionalModel BoundsModel BoundsProofs3 Integrate3Model Integrate3Props CrossModel ParamsModel LibModel MatrixModel WidthProofs SterileProofs.
Open Scope R_scope.

(* Specification. M the mass of the sterile neutrino, x and y the masses of the
   lepton and of the meson over M, f the decay constant, V the element of the
   quark mixing matrix, th the mixing angle. *)
Definition kallen (x y : R) : R := (1 - (x + y) ^ 2) * (1 - (x - y) ^ 2).
Definition charged_width (vec : bool) (G f V th M x y : R) : R :=
  G ^ 2 * f ^ 2 * V ^ 2 * th ^ 2 * M ^ 3 / (16 * PI) *
  (if vec then (1 - x ^ 2) ^ 2 + y ^ 2 * (1 + x ^ 2) - 2 * y ^ 4 else (1 - x ^ 2) ^ 2 - y ^ 2 * (1 + x ^ 2)) * sqrt (kallen x y).
(* g2: twice the square of the coupling of the meson to the Z *)
Definition neutral_width (vec : bool) (G f g2 th M y : R) : R :=
  G ^ 2 * f ^ 2 * g2 * th ^ 2 * M ^ 3 / (32 * PI) * (1 - y ^ 2) ^ 2 * (if vec then 1 + 2 * y ^ 2 else 1).
(* the families of the quarks a charged meson is made of *)
Definition charged_content (h : lib) : option (nat * nat) :=
  if String.eqb (lname h) "Charged pion" then Some (1, 1)%nat else if String.eqb (lname h) "Charged rho" then Some (1, 1)%nat
  else if String.eqb (lname h) "Charged kaon" then Some (1, 2)%nat else None.
(* amplitudes of u u', d d' and s s' in a neutral meson; a neutral kaon has none *)
Definition neutral_content (h : lib) : option (R * R * R) :=
  if String.eqb (lname h) "Neutral pion" then Some (/ sqrt 2, - / sqrt 2, 0) else if String.eqb (lname h) "Neutral rho" then Some (/ sqrt 2, - / sqrt 2, 0)
  else if String.eqb (lname h) "Omega" then Some (/ sqrt 2, / sqrt 2, 0) else if String.eqb (lname h) "Phi" then Some (0, 0, 1)
  else if String.eqb (lname h) "Kaon long" then Some (0, 0, 0) else if String.eqb (lname h) "Kaon short" then Some (0, 0, 0) else None.
(* isospin and charge give the vector and axial couplings of the quarks to the Z *)
Definition coupling (vec : bool) (c : R * R * R) : R :=
  let '(u, d, s) := c in
  let g i q := if vec then i - 2 * q * sin_theta_w_2 else i in
  u * g (1 / 2) (2 / 3) + d * g (- (1 / 2)) (- (1 / 3)) + s * g (- (1 / 2)) (- (1 / 3)).

Definition is_sterile (s : lib) : Prop := exists id m, s = sterile_neutrino id m \/ s = dirac_sterile_neutrino id m.
Notation m_ p := (MatrixModel.mass p).
(* the two products share the mass *)
Definition at_rest (s l h : lib) (q : R) : Prop := 0 <= q /\ sqrt (q ^ 2 + m_ l ^ 2) + sqrt (q ^ 2 + m_ h ^ 2) = m_ s.
(* the rate of an interaction of amplitude K, per sterile neutrino *)
Definition rate (s : lib) (K q : R) : R := rest_rate K q (m_ s) / (if majorana (sp s) then IZR (ldof s) else IZR (ldof s) / 2).
Definition physical (l h : lib) : Prop := 0 <= m_ l /\ 0 <= m_ h.
Definition built (thetas : option flavour -> R) (s : lib) (ns ls ms : list lib) (l h : lib) (K : R) : Prop :=
  exists out t, sterile_hadrons_interactions thetas s ns ls ms = Ok out /\ In (t, K) out /\ tparts t = ([s], [l; h]).

Lemma sterile_rate s K q : is_sterile s -> rate s K q = K * q / (16 * PI * m_ s ^ 2) \/ m_ s = 0.
Proof.
  intros (id & m & [-> | ->]); unfold rate, rest_rate; cbn [majorana sp ldof sterile_neutrino dirac_sterile_neutrino]; pose proof PI_RGT_0;
    match goal with |- context [m_ ?s] => destruct (Req_EM_T (m_ s) 0); [now right|left] end; field; split; lra.
Qed.
Lemma pydiv_eq a b r : pydiv a b = Ok r -> b <> 0 /\ r = a / b.
Proof. unfold pydiv. destruct (Req_EM_T b 0); [discriminate|]. intros E. split; [assumption|]. congruence. Qed.

Theorem C140_charged_scalar : forall thetas s ns ls ms l h K f q, is_sterile s -> 0 < m_ s -> physical l h ->
  built thetas s ns ls ms l h K -> Q3 h = (-3)%Z -> mtyp h = Some Scalar -> decay_constant h = Ok f -> at_rest s l h q ->
  exists V, CKM 1 1 = Ok V /\ rate s K q = charged_width false G_Fermi f V (thetas (flav l)) (m_ s) (m_ l / m_ s) (m_ h / m_ s).
Proof.
  intros thetas s ns ls ms l h K f q Hs HM (Hl & Hh) (out & t & E & I & Ht) Q T F (Hq & HE).
  destruct (hadrons_in _ _ _ _ _ _ _ _ _ _ _ E I Ht) as (_ & _ & _ & [(_ & Q' & _)|(_ & _ & [(_ & HK)|(T' & _)])]); [congruence| |congruence].
  pose proof (threshold _ _ _ _ Hl Hh Hq HE) as HT. pose proof (q_value _ _ _ _ HM Hl Hh Hq HE) as Eq. pose proof PI_RGT_0.
  eexists. split; [reflexivity|]. destruct (sterile_rate s K q Hs) as [->|]; [|lra].
  unfold charged_scalar_K in HK. rewrite F in HK. cbn [rbind CKM] in HK.
  destruct (pydiv (m_ l) (m_ s)) as [x|] eqn:Ex; [|discriminate]. destruct (pydiv (m_ h) (m_ s)) as [y|] eqn:Ey; [|discriminate]. cbn [rbind] in HK.
  apply pydiv_eq in Ex, Ey. destruct Ex as (_ & ->), Ey as (_ & ->).
  set (x := m_ l / m_ s) in *. set (y := m_ h / m_ s) in *.
  assert (X : 0 <= x) by (apply Rmult_le_pos; [lra|left; now apply Rinv_0_lt_compat]). assert (Y : 0 <= y) by (apply Rmult_le_pos; [lra|left; now apply Rinv_0_lt_compat]).
  assert (XY : x + y <= 1). { unfold x, y. replace (m_ l / m_ s + m_ h / m_ s) with ((m_ l + m_ h) / m_ s) by (field; lra). apply (proj2 (Rle_div_l _ _ _ HM)). lra. }
  rewrite Rabs_right in HK.
  2:{ apply Rle_ge. assert (y * y <= (1 - x) * (1 - x)) by (apply Rmult_le_compat; lra).
      assert (0 <= ((1 - x) * (1 - x) - y * y) * (1 + x ^ 2)) by (apply Rmult_le_pos; nra).
      assert (0 <= (1 - x) * (1 - x) * (2 * x)) by (apply Rmult_le_pos; nra).
      replace ((1 - x ^ 2) ^ 2 - y ^ 2 * (1 + x ^ 2)) with (((1 - x) * (1 - x) - y * y) * (1 + x ^ 2) + (1 - x) * (1 - x) * (2 * x)) by ring. lra. }
  match type of HK with Ok ?k = Ok K => assert (K = k) as -> by congruence end. clear HK.
  rewrite Eq at 1. unfold charged_width, kallen. field. lra.
Qed.
Print Assumptions C140_charged_scalar.

Theorem C140_charged_vector : forall thetas s ns n ls ms l h K f q, is_sterile s -> 0 < m_ s -> physical l h ->
  built thetas s (ns ++ [n]) ls ms l h K -> Q3 h = (-3)%Z -> mtyp h = Some Vector -> decay_constant h = Ok f -> at_rest s l h q ->
  exists V, CKM 1 1 = Ok V /\ rate s K q = charged_width true G_Fermi f V (thetas (flav n)) (m_ s) (m_ l / m_ s) (m_ h / m_ s).
Proof.
  intros thetas s ns n ls ms l h K f q Hs HM (Hl & Hh) (out & t & E & I & Ht) Q T F (Hq & HE).
  destruct (hadrons_in _ _ _ _ _ _ _ _ _ _ _ E I Ht) as (_ & _ & _ & [(_ & Q' & _)|(_ & _ & [(T' & _)|(_ & ns' & n' & En & HK)])]); [congruence|congruence|].
  apply app_inj_tail in En. destruct En as (_ & <-).
  pose proof (q_value _ _ _ _ HM Hl Hh Hq HE) as Eq. pose proof PI_RGT_0.
  eexists. split; [reflexivity|]. destruct (sterile_rate s K q Hs) as [->|]; [|lra].
  unfold charged_vector_K in HK. rewrite F in HK. cbn [rbind CKM] in HK.
  destruct (pydiv (m_ l) (m_ s)) as [x|] eqn:Ex; [|discriminate]. destruct (pydiv (m_ h) (m_ s)) as [y|] eqn:Ey; [|discriminate]. cbn [rbind] in HK.
  apply pydiv_eq in Ex, Ey. destruct Ex as (_ & ->), Ey as (_ & ->).
  set (x := m_ l / m_ s) in *. set (y := m_ h / m_ s) in *.
  match type of HK with Ok ?k = Ok K => assert (K = k) as -> by congruence end. clear HK.
  rewrite Eq at 1. unfold charged_width, kallen. field. lra.
Qed.
Print Assumptions C140_charged_vector.

(* neutral mesons: the amplitudes of all couplings but that of vector mesons are 1 *)
Theorem C141_neutral_scalar : forall thetas s ns ls ms l h K f q, is_sterile s -> 0 < m_ s -> m_ l = 0 -> 0 <= m_ h ->
  built thetas s ns ls ms l h K -> Q3 h = 0%Z -> mtyp h = Some Scalar -> decay_constant h = Ok f -> at_rest s l h q ->
  rate s K q = neutral_width false G_Fermi f 1 (thetas (flav l)) (m_ s) (m_ h / m_ s).
Proof.
  intros thetas s ns ls ms l h K f q Hs HM Hl Hh (out & t & E & I & Ht) Q T F (Hq & HE).
  destruct (hadrons_in _ _ _ _ _ _ _ _ _ _ _ E I Ht) as (_ & _ & _ & [(_ & _ & [(_ & HK)|(T' & _)])|(_ & Q' & _)]); [|congruence|congruence].
  assert (Hl' : 0 <= m_ l) by lra. pose proof (threshold _ _ _ _ Hl' Hh Hq HE) as HT. pose proof (q_value _ _ _ _ HM Hl' Hh Hq HE) as Eq. pose proof PI_RGT_0.
  destruct (sterile_rate s K q Hs) as [->|]; [|lra].
  unfold neutral_scalar_K in HK. rewrite F in HK. cbn [rbind] in HK. destruct (pydiv (m_ h) (m_ s)) as [y|] eqn:Ey; [|discriminate]. cbn [rbind] in HK.
  apply pydiv_eq in Ey. destruct Ey as (_ & ->). rewrite Hl in *. set (y := m_ h / m_ s) in *.
  assert (Y : 0 <= y) by (apply Rmult_le_pos; [lra|left; now apply Rinv_0_lt_compat]).
  assert (Y1 : y <= 1) by (unfold y; apply (proj2 (Rle_div_l _ _ _ HM)); lra).
  assert (P : 0 <= 1 - y ^ 2) by nra. rewrite Rabs_right in HK by lra.
  match type of HK with Ok ?k = Ok K => assert (K = k) as -> by congruence end. clear HK.
  replace (0 / m_ s) with 0 in Eq by (field; lra). replace ((1 - (0 + y) ^ 2) * (1 - (0 - y) ^ 2)) with ((1 - y ^ 2) ^ 2) in Eq by ring. rewrite sqrt_pow2 in Eq by exact P.
  rewrite Eq at 1. unfold neutral_width. field. lra.
Qed.
Print Assumptions C141_neutral_scalar.
Theorem C141_neutral_vector : forall thetas s ns ls ms l h K f k q, is_sterile s -> 0 < m_ s -> m_ l = 0 -> 0 <= m_ h ->
  built thetas s ns ls ms l h K -> Q3 h = 0%Z -> mtyp h = Some Vector -> decay_constant h = Ok f -> kappa h = Ok k -> at_rest s l h q ->
  rate s K q = neutral_width true G_Fermi f (k ^ 2) (thetas (flav l)) (m_ s) (m_ h / m_ s).
Proof.
  intros thetas s ns ls ms l h K f k q Hs HM Hl Hh (out & t & E & I & Ht) Q T F Ek (Hq & HE).
  destruct (hadrons_in _ _ _ _ _ _ _ _ _ _ _ E I Ht) as (_ & _ & _ & [(_ & _ & [(T' & _)|(_ & HK)])|(_ & Q' & _)]); [congruence| |congruence].
  assert (Hl' : 0 <= m_ l) by lra. pose proof (threshold _ _ _ _ Hl' Hh Hq HE) as HT. pose proof (q_value _ _ _ _ HM Hl' Hh Hq HE) as Eq. pose proof PI_RGT_0.
  destruct (sterile_rate s K q Hs) as [->|]; [|lra].
  unfold neutral_vector_K in HK. rewrite F, Ek in HK. cbn [rbind] in HK. destruct (pydiv (m_ h) (m_ s)) as [y|] eqn:Ey; [|discriminate]. cbn [rbind] in HK.
  apply pydiv_eq in Ey. destruct Ey as (_ & ->). rewrite Hl in *. set (y := m_ h / m_ s) in *.
  assert (Y : 0 <= y) by (apply Rmult_le_pos; [lra|left; now apply Rinv_0_lt_compat]).
  assert (Y1 : y <= 1) by (unfold y; apply (proj2 (Rle_div_l _ _ _ HM)); lra).
  assert (P : 0 <= 1 - y ^ 2) by nra.
  match type of HK with Ok ?k = Ok K => assert (K = k) as -> by congruence end. clear HK.
  replace (0 / m_ s) with 0 in Eq by (field; lra). replace ((1 - (0 + y) ^ 2) * (1 - (0 - y) ^ 2)) with ((1 - y ^ 2) ^ 2) in Eq by ring. rewrite sqrt_pow2 in Eq by exact P.
  rewrite Eq at 1. unfold neutral_width. field. lra.
Qed.
Print Assumptions C141_neutral_vector.

(* with the element of the mixing matrix that the quarks of the meson have *)
Theorem C140_charged_content : forall thetas s ns ls ms l h K f u d V q, is_sterile s -> 0 < m_ s -> physical l h ->
  built thetas s ns ls ms l h K -> Q3 h = (-3)%Z -> mtyp h = Some Scalar -> decay_constant h = Ok f ->
  lname h <> "Charged kaon"%string -> charged_content h = Some (u, d) -> CKM u d = Ok V -> at_rest s l h q ->
  rate s K q = charged_width false G_Fermi f V (thetas (flav l)) (m_ s) (m_ l / m_ s) (m_ h / m_ s).
Proof.
  intros thetas s ns ls ms l h K f u d V q Hs HM HP HB Q T F N C EV HR.
  destruct (C140_charged_scalar thetas s ns ls ms l h K f q Hs HM HP HB Q T F HR) as (V' & E' & ->).
  unfold charged_content in C. apply String.eqb_neq in N. rewrite N in C.
  destruct (String.eqb (lname h) "Charged pion"); [|destruct (String.eqb (lname h) "Charged rho"); [|discriminate]]; injection C as <- <-; congruence.
Qed.
Theorem C140_kaon : forall thetas s ns ls ms l K f V q, is_sterile s -> 0 < m_ s -> 0 <= m_ l ->
  built thetas s ns ls ms l charged_kaon K -> decay_constant charged_kaon = Ok f -> CKM 1 2 = Ok V -> at_rest s l charged_kaon q ->
  rate s K q = (974 / 225) ^ 2 * charged_width false G_Fermi f V (thetas (flav l)) (m_ s) (m_ l / m_ s) (m_ charged_kaon / m_ s).
Proof.
  intros thetas s ns ls ms l K f V q Hs HM Hl HB F EV HR.
  destruct (C140_charged_scalar thetas s ns ls ms l charged_kaon K f q Hs HM) as (V' & E' & ->); auto; [split; [exact Hl|numbers; lra]|].
  cbn [CKM] in EV, E'. assert (V = 225 / 1000) as -> by congruence. assert (V' = 974 / 1000) as -> by congruence.
  unfold charged_width. pose proof PI_RGT_0. field. lra.
Qed.
Definition heavy := sterile_neutrino 30 1000000000.
Lemma kaon_built : exists K, built (fun _ => 1) heavy [] [electron] [charged_kaon] electron charged_kaon K.
Proof.
  assert (G : exists K, charged_scalar_K 1 heavy electron charged_kaon = Ok K).
  { unfold charged_scalar_K. cbn [rbind CKM]. change (decay_constant charged_kaon) with (Ok (1556 / 10 * MeV)). cbn [rbind]. unfold pydiv.
    destruct (Req_EM_T (m_ heavy) 0) as [Z|_]; [exfalso; revert Z; unfold MatrixModel.mass, eV; cbn [smass sp heavy sterile_neutrino]; lra|]. eexists. reflexivity. }
  destruct G as (K & EK). exists K. exists (with_K (sterile_charged_meson heavy electron charged_kaon) K), (tmpl12 heavy electron charged_kaon false false true).
  split; [|split; [left; reflexivity|reflexivity]].
  unfold sterile_hadrons_interactions. cbn [list_prod traverse rbind map app concat fst snd]. unfold nonzero. destruct (Req_EM_T 1 0); [lra|].
  unfold hadrons_charged. cbn [Q3 charged_kaon Z.eqb Pos.eqb mtyp]. fold charged_kaon. rewrite EK. reflexivity.
Qed.
Theorem C140_charged_refuted : ~ (forall thetas s ns ls ms l h K f u d V q, is_sterile s -> 0 < m_ s -> physical l h ->
  built thetas s ns ls ms l h K -> Q3 h = (-3)%Z -> mtyp h = Some Scalar -> decay_constant h = Ok f ->
  charged_content h = Some (u, d) -> CKM u d = Ok V -> at_rest s l h q ->
  rate s K q = charged_width false G_Fermi f V (thetas (flav l)) (m_ s) (m_ l / m_ s) (m_ h / m_ s)).
Proof.
  intros HA. destruct kaon_built as (K & HB). pose proof PI_RGT_0 as HPI.
  assert (MS : m_ heavy = 1) by (unfold MatrixModel.mass, eV; cbn [smass sp heavy sterile_neutrino]; field).
  assert (ME : m_ electron = 511 / 10 ^ 6) by (unfold MatrixModel.mass, eV; cbn [smass sp electron]; field).
  assert (MK : m_ charged_kaon = 493677 / 10 ^ 6) by (unfold MatrixModel.mass, eV; cbn [smass sp charged_kaon]; field).
  destruct (q_exists (m_ heavy) (m_ electron) (m_ charged_kaon)) as (q & Hq & HE & _); try lra.
  assert (HS : is_sterile heavy) by (eexists; eexists; left; reflexivity).
  assert (HM : 0 < m_ heavy) by lra. assert (Hl : 0 <= m_ electron) by lra. assert (HR : at_rest heavy electron charged_kaon q) by (split; assumption).
  assert (HP : physical electron charged_kaon) by (split; lra).
  pose proof (C140_kaon _ _ _ _ _ _ _ _ _ q HS HM Hl HB eq_refl eq_refl HR) as E1.
  pose proof (HA _ _ _ _ _ _ _ _ _ _ _ _ q HS HM HP HB eq_refl eq_refl eq_refl eq_refl eq_refl HR) as E2.
  rewrite E1 in E2. clear E1.
  match type of E2 with _ = ?w => assert (P : 0 < w) end; [|lra].
  unfold charged_width, kallen. rewrite MS, ME, MK.
  assert (0 < G_Fermi ^ 2) by (apply pow_lt; replace G_Fermi with (1166 / 10 ^ 8) by (unfold G_Fermi, MeV, eV; field); lra).
  apply Rmult_lt_0_compat; [apply Rmult_lt_0_compat; [apply Rdiv_lt_0_compat; [|lra]|lra]|apply sqrt_lt_R0; lra].
  repeat (apply Rmult_lt_0_compat; [|lra]). assert (0 < (1556 / 10 * MeV) ^ 2) by (apply pow_lt; unfold MeV, eV; lra). now apply Rmult_lt_0_compat.
Qed.
Print Assumptions C140_charged_content.
Print Assumptions C140_kaon.
Print Assumptions C140_charged_refuted.

(* neutral mesons, with the coupling their quarks have *)
Lemma inv_sqrt2 : / sqrt 2 * / sqrt 2 = 1 / 2.
Proof. rewrite <- Rinv_mult. rewrite sqrt_sqrt by lra. field. Qed.
Theorem C141_pion_rho : forall thetas s ns ls ms l h K f c v q, is_sterile s -> 0 < m_ s -> m_ l = 0 -> h = neutral_pion \/ h = neutral_rho ->
  built thetas s ns ls ms l h K -> decay_constant h = Ok f -> neutral_content h = Some c -> v = match mtyp h with Some Vector => true | _ => false end -> at_rest s l h q ->
  rate s K q = neutral_width v G_Fermi f (2 * coupling v c ^ 2) (thetas (flav l)) (m_ s) (m_ h / m_ s).
Proof.
  intros thetas s ns ls ms l h K f c v q Hs HM Hl Hh HB F C -> HR. pose proof inv_sqrt2 as I2.
  destruct Hh as [-> | ->]; (assert (c = (/ sqrt 2, - / sqrt 2, 0)) as -> by (cbn in C; congruence)); cbn [mtyp neutral_pion neutral_rho]; fold neutral_pion; fold neutral_rho.
  - rewrite (C141_neutral_scalar thetas s ns ls ms l neutral_pion K f q); auto; [|numbers; lra]. f_equal. unfold coupling.
    replace (2 * (/ sqrt 2 * (1 / 2) + - / sqrt 2 * - (1 / 2) + 0 * - (1 / 2)) ^ 2) with (2 * (/ sqrt 2 * / sqrt 2)) by (pose proof (sqrt_lt_R0 2); field; lra). rewrite I2. field.
  - rewrite (C141_neutral_vector thetas s ns ls ms l neutral_rho K f (1 - 2 * sin_theta_w_2) q); auto; [|numbers; lra]. f_equal. unfold coupling.
    set (w := sin_theta_w_2).
    replace (2 * (/ sqrt 2 * (1 / 2 - 2 * (2 / 3) * w) + - / sqrt 2 * (- (1 / 2) - 2 * - (1 / 3) * w) + 0 * (- (1 / 2) - 2 * - (1 / 3) * w)) ^ 2)
      with (2 * (/ sqrt 2 * / sqrt 2) * (1 - 2 * w) ^ 2) by (pose proof (sqrt_lt_R0 2); field; lra). rewrite I2. field.
Qed.
(* the rates into omega and phi are four and two times as large *)
Theorem C141_omega_phi : forall thetas s ns ls ms l h K f c r q, is_sterile s -> 0 < m_ s -> m_ l = 0 -> h = omega /\ r = 4 \/ h = phi /\ r = 2 ->
  built thetas s ns ls ms l h K -> decay_constant h = Ok f -> neutral_content h = Some c -> at_rest s l h q ->
  rate s K q = r * neutral_width true G_Fermi f (2 * coupling true c ^ 2) (thetas (flav l)) (m_ s) (m_ h / m_ s).
Proof.
  intros thetas s ns ls ms l h K f c r q Hs HM Hl Hh HB F C HR. pose proof inv_sqrt2 as I2. pose proof PI_RGT_0.
  assert (HW : forall v G f g th M y r, neutral_width v G f (r * g) th M y = r * neutral_width v G f g th M y) by (intros; unfold neutral_width; field; lra).
  destruct Hh as [(-> & ->)|(-> & ->)].
  - assert (c = (/ sqrt 2, / sqrt 2, 0)) as -> by (cbn in C; congruence).
    rewrite (C141_neutral_vector thetas s ns ls ms l omega K f (4 * sin_theta_w_2 / 3) q); auto; [|numbers; lra]. rewrite <- HW. f_equal. unfold coupling.
    set (w := sin_theta_w_2).
    replace (4 * (2 * (/ sqrt 2 * (1 / 2 - 2 * (2 / 3) * w) + / sqrt 2 * (- (1 / 2) - 2 * - (1 / 3) * w) + 0 * (- (1 / 2) - 2 * - (1 / 3) * w)) ^ 2))
      with (2 * (/ sqrt 2 * / sqrt 2) * (4 * w / 3) ^ 2) by (pose proof (sqrt_lt_R0 2); field; lra). rewrite I2. field.
  - assert (c = (0, 0, 1)) as -> by (cbn in C; congruence).
    rewrite (C141_neutral_vector thetas s ns ls ms l phi K f (4 * sin_theta_w_2 / 3 - 1) q); auto; [|numbers; lra]. rewrite <- HW. f_equal. unfold coupling. field.
Qed.
(* a neutral kaon does not couple to the Z, yet its channel is open *)
Theorem C141_neutral_kaons : forall thetas s ns ls ms l h K f c q, is_sterile s -> 0 < m_ s -> m_ l = 0 -> h = kaon_long \/ h = kaon_short ->
  built thetas s ns ls ms l h K -> decay_constant h = Ok f -> neutral_content h = Some c -> at_rest s l h q -> m_ h < m_ s ->
  neutral_width false G_Fermi f (2 * coupling false c ^ 2) (thetas (flav l)) (m_ s) (m_ h / m_ s) = 0 /\ 0 < rate s K q.
Proof.
  intros thetas s ns ls ms l h K f c q Hs HM Hl Hh HB F C HR HT. pose proof PI_RGT_0.
  assert (TH : thetas (flav l) <> 0) by (destruct HB as (out & t & E & I & Ht); destruct (hadrons_in _ _ _ _ _ _ _ _ _ _ _ E I Ht) as (_ & _ & TH & _); exact TH).
  assert (c = (0, 0, 0)) as -> by (destruct Hh as [-> | ->]; cbn in C; congruence). split; [unfold neutral_width, coupling; field; lra|].
  assert (HF : f = 1556 / 10 * MeV) by (destruct Hh as [-> | ->]; cbn in F; congruence).
  assert (Hm : 0 <= m_ h) by (destruct Hh as [-> | ->]; numbers; lra).
  rewrite (C141_neutral_scalar thetas s ns ls ms l h K f q); auto; try (destruct Hh as [-> | ->]; reflexivity). subst f.
  assert (0 < G_Fermi ^ 2) by (apply pow_lt; replace G_Fermi with (1166 / 10 ^ 8) by (unfold G_Fermi, MeV, eV; field); lra).
  assert (0 < (1556 / 10 * MeV) ^ 2) by (apply pow_lt; unfold MeV, eV; lra). assert (0 < thetas (flav l) ^ 2) by (apply pow2_gt_0; exact TH). assert (0 < m_ s ^ 3) by (now apply pow_lt).
  unfold neutral_width. assert (Y : m_ h / m_ s < 1) by (apply (Rlt_div_l _ _ _ HM); lra). assert (Y0 : 0 <= m_ h / m_ s) by (apply Rmult_le_pos; [exact Hm|left; now apply Rinv_0_lt_compat]).
  repeat (apply Rmult_lt_0_compat; [|lra]). apply Rmult_lt_0_compat; [|apply pow_lt; nra]. apply Rdiv_lt_0_compat; [|lra]. repeat (apply Rmult_lt_0_compat; [|assumption || lra]). assumption.
Qed.
Print Assumptions C141_pion_rho.
Print Assumptions C141_omega_phi.
Print Assumptions C141_neutral_kaons.

Lemma neutral_built h K : Q3 h = 0%Z -> mtyp h = Some Scalar -> neutral_scalar_K 1 heavy h = Ok K -> built (fun _ => 1) heavy [neutrino_e] [] [h] neutrino_e h K.
Proof.
  intros Q T EK. exists (with_K (sterile_neutral_meson heavy neutrino_e h) K), (tmpl12 heavy neutrino_e h false false false).
  split; [|split; [left; reflexivity|reflexivity]].
  unfold sterile_hadrons_interactions. cbn [list_prod traverse rbind map app concat fst snd]. unfold nonzero. destruct (Req_EM_T 1 0); [lra|].
  unfold hadrons_neutral. rewrite Q, T. cbn [Z.eqb]. rewrite EK. reflexivity.
Qed.
Theorem C141_neutral_refuted : ~ (forall thetas s ns ls ms l h K f c v q, is_sterile s -> 0 < m_ s -> m_ l = 0 ->
  built thetas s ns ls ms l h K -> decay_constant h = Ok f -> neutral_content h = Some c -> v = match mtyp h with Some Vector => true | _ => false end -> at_rest s l h q ->
  rate s K q = neutral_width v G_Fermi f (2 * coupling v c ^ 2) (thetas (flav l)) (m_ s) (m_ h / m_ s)).
Proof.
  intros HA. assert (MS : m_ heavy = 1) by (unfold MatrixModel.mass, eV; cbn [smass sp heavy sterile_neutrino]; field).
  assert (MN : m_ neutrino_e = 0) by (unfold MatrixModel.mass, eV; cbn [smass sp neutrino_e]; field).
  assert (MK : m_ kaon_long = 497611 / 10 ^ 6) by (unfold MatrixModel.mass, eV; cbn [smass sp kaon_long]; field).
  assert (EK : exists K, neutral_scalar_K 1 heavy kaon_long = Ok K).
  { unfold neutral_scalar_K. change (decay_constant kaon_long) with (Ok (1556 / 10 * MeV)). cbn [rbind]. unfold pydiv. destruct (Req_EM_T (m_ heavy) 0); [lra|]. eexists. reflexivity. }
  destruct EK as (K & EK). pose proof (neutral_built kaon_long K eq_refl eq_refl EK) as HB.
  destruct (q_exists (m_ heavy) (m_ neutrino_e) (m_ kaon_long)) as (q & Hq & HE & _); try lra.
  assert (HS : is_sterile heavy) by (eexists; eexists; left; reflexivity). assert (HM : 0 < m_ heavy) by lra. assert (HR : at_rest heavy neutrino_e kaon_long q) by (split; assumption).
  destruct (C141_neutral_kaons _ _ _ _ _ _ _ _ _ _ q HS HM MN (or_introl eq_refl) HB eq_refl eq_refl HR) as (Z & P); [lra|].
  pose proof (HA _ _ _ _ _ _ _ _ _ _ _ q HS HM MN HB eq_refl eq_refl eq_refl HR) as E. cbn [mtyp kaon_long] in E. fold kaon_long in E. rewrite Z in E. lra.
Qed.
Print Assumptions C141_neutral_refuted.

(* The arrays of the collision integral (C133): a rate G at rest is a rate G m / E
   at every momentum *)
Theorem C140_arrays : forall s l h K G q (rs : nat -> participant) a aT H max_2 x ys Is cs, is_sterile s ->
  0 < a -> 0 < aT -> H <> 0 -> x <> 0 -> physical l h -> m_ l + m_ h < m_ s ->
  BoundsModel.mass (rs 0%nat) = compiled_mass a aT (m_ s) -> BoundsModel.mass (rs 1%nat) = compiled_mass a aT (m_ l) ->
  (forall n, (2 <= n)%nat -> BoundsModel.mass (rs n) = compiled_mass a aT (m_ h)) ->
  sides3_are rs (-1) 1 1 -> (forall n p, exists x, occ (rs n) p = Ok x) -> at_rest s l h q -> rate s K q = G ->
  Forall (fun y => 0 < y) ys -> Forall2 (fun y I => exists st, point3_is rs Ff_vacuum max_2 st (compiled_momentum aT y) I) (0 :: ys) Is ->
  constants3 K a aT H (m_ s) (majorana (sp s)) (IZR (ldof s)) 1 x true (List.length (0 :: ys)) = Ok cs ->
  multiply Is cs = map (fun y => - (dilated G (m_ s) a y / H)) (0 :: ys).
Proof.
  intros s l h K G q rs a aT H max_2 x ys Is cs Hs Ha HT HH Hx (Hl & Hh) HTh M0 M1 M2 Hsd Ho (Hq & HE) HG Hys HI HC.
  apply (array_of_rate (m_ s) (m_ l) (m_ h) K G q rs a aT H max_2 (majorana (sp s)) (IZR (ldof s)) x ys Is cs); auto.
  destruct Hs as (id & m & [-> | ->]); cbn [ldof sterile_neutrino dirac_sterile_neutrino]; lra.
Qed.
Print Assumptions C140_arrays.

(* a sterile neutrino of 1 GeV has all the hypotheses *)
Example C140_example : exists K q, built (fun _ => 1) heavy [] [electron] [charged_kaon] electron charged_kaon K /\ at_rest heavy electron charged_kaon q /\ 0 < q.
Proof.
  assert (MS : m_ heavy = 1) by (unfold MatrixModel.mass, eV; cbn [smass sp heavy sterile_neutrino]; field).
  assert (ME : m_ electron = 511 / 10 ^ 6) by (unfold MatrixModel.mass, eV; cbn [smass sp electron]; field).
  assert (MK : m_ charged_kaon = 493677 / 10 ^ 6) by (unfold MatrixModel.mass, eV; cbn [smass sp charged_kaon]; field).
  destruct kaon_built as (K & HB). destruct (q_exists (m_ heavy) (m_ electron) (m_ charged_kaon)) as (q & Hq & HE & HP); try lra.
  exists K, q. split; [exact HB|]. split; [split; assumption|]. apply HP. lra.
Qed.
Example C141_example : exists K, built (fun _ => 1) heavy [neutrino_e] [] [neutral_pion] neutrino_e neutral_pion K.
Proof.
  assert (MS : m_ heavy = 1) by (unfold MatrixModel.mass, eV; cbn [smass sp heavy sterile_neutrino]; field).
  assert (EK : exists K, neutral_scalar_K 1 heavy neutral_pion = Ok K).
  { unfold neutral_scalar_K. change (decay_constant neutral_pion) with (Ok (1302 / 10 * MeV)). cbn [rbind]. unfold pydiv. destruct (Req_EM_T (m_ heavy) 0); [lra|]. eexists. reflexivity. }
  destruct EK as (K & EK). exists K. now apply neutral_built.
Qed.
