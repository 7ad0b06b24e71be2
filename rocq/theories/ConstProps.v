(* C148: the constants against measured values and against each other. *)
From Coq Require Import Reals Lra Lia.
From Verif Require Import Base CrossModel ParamsModel LibModel MatrixModel UnitsModel UnitsProps WidthProofs.
From Verif Require KinemModel KawanoModel OscModel WidthModel.
Open Scope R_scope.

(* x agrees with y to the fraction e *)
Lemma Ok_inj {A} (x y : A) : Ok x = Ok y -> x = y.
Proof. congruence. Qed.
Definition near (e y x : R) : Prop := Rabs (x - y) <= e * Rabs y.
Lemma near_pos e y x : 0 < y -> (1 - e) * y <= x <= (1 + e) * y -> near e y x.
Proof. intros Hy [H1 H2]. unfold near. rewrite (Rabs_right y) by lra. apply Rabs_le. lra. Qed.

(* Specification: measured values. hbar in MeV s, Boltzmann's constant in MeV per
   10^9 K, energies in MeV, the Fermi constant in GeV^-2, the Hubble time in s, the
   squared mass differences in eV^2 *)
Record measured := mkmeasured { hbar : R; k_B : R; fermi : R; planck : R; w_boson : R; qcd : R; hubble_time : R; dm12 : R; dm13 : R;
  fK : R; feta_c : R; fD : R; fDs : R; fDs_star : R }.
Definition data : measured := mkmeasured (658212 / 10 ^ 27) (8617333 / 10 ^ 8) (11663788 / 10 ^ 12) (122089 / 10 ^ 5 * 10 ^ 22) (80377) (150) (455 / 100 * 10 ^ 17)
  (742 / 10 ^ 7) (2515 / 10 ^ 6) (1557 / 10) (335) (212) (2499 / 10) (315).
Ltac closed := unfold import_common, data; cbn [munits mconsts reset_units constants hbar k_B fermi planck w_boson qcd hubble_time dm12 dm13 fK feta_c fD fDs fDs_star
  eV keV MeV GeV TeV sec kg metre newton K9 g_cm3 UnitsModel.M_p UnitsModel.G UnitsModel.G_F Hubble UnitsModel.f_K f_eta_c f_D f_Ds f_Ds_star UnitsModel.lambda_QCD M_W UnitsModel.delta_m12_sq UnitsModel.delta_m13_sq UnitsModel.rate_normalization MSW_constant].
(* the ladder of energies is exact; hbar and k_B to five digits *)
Theorem C148_units : let u := munits import_common in
  UnitsModel.keV u = 1000 * UnitsModel.eV u /\ UnitsModel.MeV u = 1000 * keV u /\ GeV u = 1000 * UnitsModel.MeV u /\ TeV u = 1000 * GeV u /\
  near (/ 10 ^ 5) (hbar data) (1 / (UnitsModel.MeV u * sec u)) /\ near (/ 10 ^ 5) (k_B data) (K9 u / UnitsModel.MeV u).
Proof. closed. repeat split; try lra; apply near_pos; try lra; split; lra. Qed.
Print Assumptions C148_units.
(* the constants *)
Theorem C148_constants : let u := munits import_common in let c := mconsts import_common in
  near (/ 10 ^ 3) (fermi data) (UnitsModel.G_F c * GeV u ^ 2) /\ near (/ 10 ^ 4) (planck data) (UnitsModel.M_p c / UnitsModel.MeV u) /\ near (/ 10 ^ 3) (w_boson data) (M_W c / UnitsModel.MeV u) /\
  near (/ 10 ^ 3) (qcd data) (UnitsModel.lambda_QCD c / UnitsModel.MeV u) /\ near (/ 10 ^ 3) (hubble_time data) (1 / Hubble c / sec u) /\
  near (2 / 100) (dm12 data) (UnitsModel.delta_m12_sq c / UnitsModel.eV u ^ 2) /\ near (2 / 100) (dm13 data) (UnitsModel.delta_m13_sq c / UnitsModel.eV u ^ 2) /\
  near (4 / 10 ^ 3) (fK data) (UnitsModel.f_K c / UnitsModel.MeV u) /\ near (4 / 10 ^ 3) (feta_c data) (f_eta_c c / UnitsModel.MeV u) /\ near (4 / 10 ^ 3) (fD data) (f_D c / UnitsModel.MeV u) /\
  near (4 / 10 ^ 3) (fDs data) (f_Ds c / UnitsModel.MeV u) /\ near (4 / 10 ^ 3) (fDs_star data) (f_Ds_star c / UnitsModel.MeV u).
Proof. closed. repeat split; apply near_pos; try lra; split; lra. Qed.
Print Assumptions C148_constants.
(* G is the inverse square of the Planck mass *)
Theorem C148_gravity : let c := mconsts import_common in UnitsModel.G c * UnitsModel.M_p c ^ 2 = 1.
Proof. closed. field. Qed.
Print Assumptions C148_gravity.
(* the Weinberg angle, the fine-structure constant, the Fermi constant and the W
   mass: pi alpha / (sqrt 2 M_W^2 s^2) = G_F (1 - Delta r), 0.06 < Delta r < 0.08 *)
Theorem C148_electroweak : let c := mconsts import_common in
  exists dr, 6 / 100 < dr < 8 / 100 /\ PI * alpha / (sqrt 2 * M_W c ^ 2 * sin_theta_w_2) = UnitsModel.G_F c * (1 - dr).
Proof.
  cbv zeta. set (c := mconsts import_common). exists (1 - PI * alpha / (sqrt 2 * M_W c ^ 2 * sin_theta_w_2) / UnitsModel.G_F c).
  assert (HS : 141421 / 10 ^ 5 < sqrt 2 < 141422 / 10 ^ 5).
  { split; [apply Rsqr_incrst_0|apply Rsqr_incrst_0]; try (apply sqrt_pos); try lra; rewrite Rsqr_sqrt by lra; unfold Rsqr; lra. }
  pose proof PI_bounds as HP. assert (HG : 0 < UnitsModel.G_F c) by (unfold c; closed; lra).
  split; [|match goal with |- ?a = _ => generalize a end; intros a; field; lra].
  assert (HM : alpha / (M_W c ^ 2 * sin_theta_w_2) / UnitsModel.G_F c = 10 ^ 21 / (137036 * 2312 * 80379 ^ 2 * 1166)) by (unfold c, alpha, sin_theta_w_2; closed; field).
  assert (HN : M_W c ^ 2 * sin_theta_w_2 > 0) by (unfold c, sin_theta_w_2; closed; lra).
  replace (PI * alpha / (sqrt 2 * M_W c ^ 2 * sin_theta_w_2) / UnitsModel.G_F c) with (PI / sqrt 2 * (alpha / (M_W c ^ 2 * sin_theta_w_2) / UnitsModel.G_F c)).
  2:{ assert (M_W c <> 0) by (unfold c; closed; lra). assert (sin_theta_w_2 <> 0) by (unfold sin_theta_w_2; lra). field. repeat split; lra. }
  rewrite HM.
  assert (HR : 31415 / 10000 / (141422 / 10 ^ 5) < PI / sqrt 2 < 31416 / 10000 / (141421 / 10 ^ 5)).
  { unfold Rdiv at 1 3 4 6. split.
    - apply Rmult_le_0_lt_compat; try lra. apply Rinv_lt_contravar; nra.
    - apply Rmult_le_0_lt_compat; try lra; [left; apply Rinv_0_lt_compat; lra|]. apply Rinv_lt_contravar; nra. }
  lra.
Qed.
Print Assumptions C148_electroweak.
(* the quark mixing matrix is unitary to two thousandths, rows and columns *)
Theorem C148_ckm : forall i, (1 <= i <= 3)%nat -> exists a b c d e f, CKM i 1 = Ok a /\ CKM i 2 = Ok b /\ CKM i 3 = Ok c /\ CKM 1 i = Ok d /\ CKM 2 i = Ok e /\ CKM 3 i = Ok f /\
  near (2 / 1000) 1 (a ^ 2 + b ^ 2 + c ^ 2) /\ near (2 / 1000) 1 (d ^ 2 + e ^ 2 + f ^ 2) /\ Forall (fun x => 0 < x < 1) [a; b; c; d; e; f].
Proof.
  intros i Hi. assert (C : i = 1%nat \/ i = 2%nat \/ i = 3%nat) by lia.
  destruct C as [->|[->| ->]]; (do 6 eexists; repeat (split; [reflexivity|]); split; [|split]; [apply near_pos; [lra|split; lra]..|repeat (apply Forall_cons; [lra|]); apply Forall_nil]).
Qed.
Print Assumptions C148_ckm.
(* the mixing grows weaker away from the diagonal: V_ud > V_us > V_ub and so on *)
Theorem C148_hierarchy : forall i j k x y, (i <> k)%nat -> CKM i k = Ok x -> CKM j j = Ok y -> x < y / 4.
Proof.
  intros i j k x y N Hx Hy. destruct i as [|[|[|[|]]]], k as [|[|[|[|]]]], j as [|[|[|[|]]]]; try discriminate Hx; try discriminate Hy; try (exfalso; now apply N);
    apply Ok_inj in Hx, Hy; subst; lra.
Qed.
Print Assumptions C148_hierarchy.

(* the matter term of neutrino oscillations: a neutrino of energy E in a plasma of
   relativistic electrons and positrons has the potential
   V = - 8 sqrt 2 G_F E rho / (3 M_W^2), rho = 4 * 7/8 * pi^2/30 * T^4, and
   MSW_constant E^2 T^4 is 2 E |V|, to half a per cent *)
Definition plasma_density (T : R) : R := 4 * (7 / 8) * (PI ^ 2 / 30) * T ^ 4.
Definition potential (gf mw E T : R) : R := - (8 * sqrt 2 * gf * E * plasma_density T / (3 * mw ^ 2)).
Theorem C148_matter : forall E T, 0 < E -> 0 < T -> let c := mconsts import_common in
  near (5 / 1000) (- (2 * E * potential (UnitsModel.G_F c) (M_W c) E T)) (MSW_constant c * E ^ 2 * T ^ 4).
Proof.
  intros E T HE HT. cbv zeta. set (c := mconsts import_common).
  assert (HG : 0 < UnitsModel.G_F c) by (unfold c; closed; lra). assert (HM : 0 < M_W c) by (unfold c; closed; lra).
  assert (HS : 0 < sqrt 2) by (apply sqrt_lt_R0; lra). pose proof PI_bounds as HP.
  set (X := sqrt 2 * UnitsModel.G_F c / M_W c ^ 2 * E ^ 2 * T ^ 4).
  assert (HX : 0 < X). { unfold X. repeat (apply Rmult_lt_0_compat; [|now apply pow_lt]). apply Rdiv_lt_0_compat; [now apply Rmult_lt_0_compat|now apply pow_lt]. }
  replace (MSW_constant c * E ^ 2 * T ^ 4) with (16 * (12021 / 10 ^ 4) / PI * X).
  2:{ unfold X. replace (MSW_constant c) with (16 * (12021 / 10 ^ 4) * sqrt 2 * UnitsModel.G_F c / PI / M_W c ^ 2) by reflexivity. field. lra. }
  replace (- (2 * E * potential (UnitsModel.G_F c) (M_W c) E T)) with (16 * 7 * PI ^ 2 / 180 * X) by (unfold X, potential, plasma_density; field; lra).
  assert (HQ : 9869 / 1000 < PI ^ 2 < 98697 / 10000) by (cbn [pow]; nra).
  assert (HI : 10000 / 31416 < / PI < 10000 / 31415).
  { split; [replace (10000 / 31416) with (/ (31416 / 10000)) by field|replace (10000 / 31415) with (/ (31415 / 10000)) by field]; apply Rinv_lt_contravar; nra. }
  apply near_pos; [apply Rmult_lt_0_compat; nra|]. unfold Rdiv at 2.
  split; [rewrite <- Rmult_assoc; apply Rmult_le_compat_r; nra|rewrite <- Rmult_assoc; apply Rmult_le_compat_r; nra].
Qed.
Print Assumptions C148_matter.
(* isospin: the three kaons have one decay constant, that of the table of
   constants; so have the two pions, and the two rho mesons to a thousandth.
   Decay constants of the library against the measured ones *)
Definition decay_data : list (string * R) :=
  [("Neutral pion", 1302 / 10); ("Charged pion", 1302 / 10); ("Charged kaon", 1557 / 10); ("Kaon long", 1557 / 10); ("Kaon short", 1557 / 10);
   ("Eta", 817 / 10); ("Eta prime", - (947 / 10)); ("Charged rho", 209); ("Neutral rho", 209); ("Omega", 1955 / 10); ("Phi", 2295 / 10)]%string.
Theorem C148_decay_constants : forall p f, decay_constant p = Ok f -> exists v, In (lname p, v) decay_data /\ near (2 / 1000) v (f / ParamsModel.MeV).
Proof.
  intros p f. unfold decay_constant.
  assert (HM : ParamsModel.MeV = / 1000) by (unfold ParamsModel.MeV, ParamsModel.eV; lra). rewrite HM.
  do 11 (match goal with |- context [String.eqb (lname p) ?n] => destruct (String.eqb_spec (lname p) n) as [->|_] end; [intros H; apply Ok_inj in H; subst f; eexists; split; [unfold decay_data; repeat (first [left; reflexivity|right])|]; unfold near, Rabs; repeat destruct Rcase_abs; lra|]).
  intros H. discriminate H.
Qed.
Print Assumptions C148_decay_constants.
Theorem C148_isospin : decay_constant charged_kaon = decay_constant kaon_long /\ decay_constant charged_kaon = decay_constant kaon_short /\ decay_constant neutral_pion = decay_constant charged_pion /\
  decay_constant charged_kaon = Ok (UnitsModel.f_K (mconsts import_common)).
Proof. repeat split; try reflexivity. change (decay_constant charged_kaon) with (Ok (1556 / 10 * ParamsModel.MeV)). f_equal. unfold ParamsModel.MeV, ParamsModel.eV. closed. lra. Qed.
Print Assumptions C148_isospin.
(* the copies of the constants in the other model files are these *)
Theorem C148_one_table : let u := munits import_common in let c := mconsts import_common in
  ParamsModel.eV = UnitsModel.eV u /\ ParamsModel.MeV = UnitsModel.MeV u /\ ParamsModel.M_p = UnitsModel.M_p c /\ ParamsModel.G = UnitsModel.G c /\
  MatrixModel.G_Fermi = UnitsModel.G_F c /\ KinemModel.G_F = UnitsModel.G_F c /\ KinemModel.lambda_QCD = UnitsModel.lambda_QCD c /\
  KawanoModel.second = sec u /\ WidthModel.second = sec u /\ KawanoModel.rate_normalization = UnitsModel.rate_normalization c /\
  OscModel.delta_m12_sq = UnitsModel.delta_m12_sq c /\ OscModel.delta_m13_sq = UnitsModel.delta_m13_sq c.
Proof.
  unfold ParamsModel.eV, ParamsModel.MeV, ParamsModel.M_p, ParamsModel.G, MatrixModel.G_Fermi, KinemModel.G_F, KinemModel.lambda_QCD, KawanoModel.second, WidthModel.second, KawanoModel.rate_normalization,
    OscModel.delta_m12_sq, OscModel.delta_m13_sq, ParamsModel.M_p, ParamsModel.MeV, ParamsModel.eV. closed. repeat split; lra.
Qed.
Print Assumptions C148_one_table.
Example C148_example : CKM 1 2 = Ok (225 / 1000) /\ decay_constant charged_pion = Ok (1302 / 10 * ParamsModel.MeV).
Proof. split; reflexivity. Qed.
