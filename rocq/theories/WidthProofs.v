(* Bounds on decay widths *)
From Coq Require Import Reals Lra Psatz Machin.
From Coquelicot Require Import Coquelicot.
From Verif Require Import Base CrossModel ParamsModel LibModel MatrixModel WidthModel BoundsModel BoundsProofs Integrate3Model Integrate3Props.
Open Scope R_scope.

Lemma PI_bounds : 31415 / 10000 < PI < 31416 / 10000.
Proof.
  pose proof (PI_2_3_7_ineq 3) as [A B].
  unfold tg_alt, PI_2_3_7_tg, Ratan_seq in A, B. cbn -[Rmult Rplus Rinv Ropp Rdiv IZR INR] in A, B.
  repeat rewrite INR_IZR_INZ in A. repeat rewrite INR_IZR_INZ in B.
  repeat match type of A with context [Z.of_nat ?n] => let z := eval vm_compute in (Z.of_nat n) in change (Z.of_nat n) with z in A end.
  repeat match type of B with context [Z.of_nat ?n] => let z := eval vm_compute in (Z.of_nat n) in change (Z.of_nat n) with z in B end.
  split; lra.
Qed.

Lemma q_bounds m b c q lo hi : 0 < m -> 0 <= b -> 0 <= c -> 0 <= q -> 0 <= lo -> 0 <= hi ->
  sqrt (q ^ 2 + b ^ 2) + sqrt (q ^ 2 + c ^ 2) = m ->
  (2 * m * lo) ^ 2 <= (m ^ 2 - b ^ 2 - c ^ 2) ^ 2 - 4 * b ^ 2 * c ^ 2 <= (2 * m * hi) ^ 2 -> lo <= q <= hi.
Proof.
  intros Hm Hb Hc Hq Hl Hh HE. rewrite (rest_momentum_lam m b c q Hb Hc Hq HE). intros [A B].
  assert (2 * m * lo <= 2 * m * q) by (apply Rsqr_incr_0_var; [unfold Rsqr; nra|nra]).
  assert (2 * m * q <= 2 * m * hi) by (apply Rsqr_incr_0_var; [unfold Rsqr; nra|nra]). nra.
Qed.

Lemma width_close K q m d tau br lo hi : 0 < m -> 0 < d -> lo <= q <= hi -> 0 <= K -> 0 <= tau -> 0 <= br ->
  br * (39 / 40) * (31416 / 10000) <= K / (8 * m ^ 2) / d * tau * lo -> K / (8 * m ^ 2) / d * tau * hi <= br * (41 / 40) * (31415 / 10000) ->
  Rabs (rest_rate K q m / d * tau - br) <= br / 40.
Proof.
  intros Hm Hd [Hl Hh] HK Ht Hb A B. pose proof PI_bounds as [P1 P2].
  set (c := K / (8 * m ^ 2) / d * tau) in *.
  assert (Hc : 0 <= c).
  { unfold c. assert (0 < m ^ 2) by (now apply pow_lt). apply Rmult_le_pos; [|exact Ht]. apply Rmult_le_pos; [apply Rmult_le_pos; [exact HK|]|]; left; apply Rinv_0_lt_compat; lra. }
  assert (E : rest_rate K q m / d * tau = c * q / PI) by (unfold rest_rate, c; field; repeat split; lra). rewrite E.
  assert (c * lo <= c * q <= c * hi) by (split; apply Rmult_le_compat_l; lra).
  assert (L : br * (39 / 40) <= c * q / PI) by (apply (proj1 (Rle_div_r _ _ _ PI_RGT_0)); apply Rle_trans with (br * (39 / 40) * (31416 / 10000)); [apply Rmult_le_compat_l|]; lra).
  assert (U : c * q / PI <= br * (41 / 40)) by (apply (proj2 (Rle_div_l _ _ _ PI_RGT_0)); apply Rle_trans with (br * (41 / 40) * (31415 / 10000)); [|apply Rmult_le_compat_l]; lra).
  apply Rabs_le. lra.
Qed.

Definition dofs (p : lib) : R := if majorana (sp p) then IZR (ldof p) else IZR (ldof p) / 2.
(* the decay at rest with constant squared amplitude K takes place at the rate
   BR / lifetime, to 2.5 per cent *)
Definition width_ok (p b c : lib) (K : R) : Prop := forall z tau q,
  branching p [b; c] = Ok (Some z) -> lifetime p = Ok tau -> 0 <= q ->
  sqrt (q ^ 2 + MatrixModel.mass b ^ 2) + sqrt (q ^ 2 + MatrixModel.mass c ^ 2) = MatrixModel.mass p ->
  Rabs (rest_rate K q (MatrixModel.mass p) / dofs p * tau - IZR z / 10 ^ 6) <= IZR z / 10 ^ 6 / 40.

Ltac known_value H := match type of H with ?x = Ok ?k => let v := eval hnf in x in change x with v in H; match v with Ok ?e => assert (k = e) as -> by congruence end end; clear H.
Ltac numbers := unfold MatrixModel.mass, second, MeV, eV; cbn [smass sp majorana ldof dofs charged_pion muon neutrino_mu charged_kaon neutral_pion kaon_short kaon_long photon eta neutral_rho charged_rho omega eta_prime phi dofs].
Ltac close_width br lo hi :=
  let HK := fresh in let z := fresh in let tau := fresh in let q := fresh in let HB := fresh in let HT := fresh in let Hq := fresh in let HE := fresh in
  intros HK z tau q HB HT Hq HE; known_value HK; known_value HT;
  assert (z = br) as -> by (vm_compute in HB; congruence); clear HB;
  apply (q_bounds _ _ _ _ lo hi) in HE; [|numbers; lra..]; unfold dofs;
  apply (width_close _ _ _ _ _ _ lo hi); [numbers; lra..| |]; numbers; lra.
Lemma width_charged_pion_muon_neutrino_mu K : charged_pion_K charged_pion muon = Ok K -> width_ok charged_pion muon neutrino_mu K.
Proof.
  unfold charged_pion_K, pydiv. destruct (Req_EM_T _ 0) as [H|_]; [exfalso; revert H; numbers; lra|].
  replace (MatrixModel.mass charged_pion / MatrixModel.mass muon) with (139570 / 105658) by (numbers; field).
  replace G_Fermi with (1166 / 10 ^ 8) by (unfold G_Fermi, MeV, eV; field).
  close_width 999877%Z (29792 / 10 ^ 6) (29793 / 10 ^ 6). Qed.
Lemma width_charged_kaon_muon_neutrino_mu K : matrix_elements "KaonMinMuonNumu" = Ok K -> width_ok charged_kaon muon neutrino_mu K.
Proof. close_width 635600%Z (235531 / 10 ^ 6) (235532 / 10 ^ 6). Qed.
Lemma width_charged_kaon_charged_pion_neutral_pion K : matrix_elements "KaonMinPiMinPi0" = Ok K -> width_ok charged_kaon charged_pion neutral_pion K.
Proof. close_width 206700%Z (205136 / 10 ^ 6) (205137 / 10 ^ 6). Qed.
Lemma width_kaon_short_neutral_pion_neutral_pion K : matrix_elements "KaonSTwoPi0" = Ok K -> width_ok kaon_short neutral_pion neutral_pion K.
Proof. close_width 306900%Z (209008 / 10 ^ 6) (209009 / 10 ^ 6). Qed.
Lemma width_kaon_short_charged_pion_charged_pion K : matrix_elements "KaonSPiPlusPiMin" = Ok K -> width_ok kaon_short charged_pion charged_pion K.
Proof. close_width 692000%Z (205971 / 10 ^ 6) (205972 / 10 ^ 6). Qed.
Lemma width_eta_photon_photon K : matrix_elements "EtaTwoGamma" = Ok K -> width_ok eta photon photon K.
Proof. close_width 394100%Z (273930 / 10 ^ 6) (273931 / 10 ^ 6). Qed.
Lemma width_neutral_rho_charged_pion_charged_pion K : matrix_elements "Rho0PiPlusPiMin" = Ok K -> width_ok neutral_rho charged_pion charged_pion K.
Proof. close_width 1000000%Z (361754 / 10 ^ 6) (361755 / 10 ^ 6). Qed.
Lemma width_charged_rho_charged_pion_neutral_pion K : matrix_elements "RhoPlusPiPlusPi0" = Ok K -> width_ok charged_rho charged_pion neutral_pion K.
Proof. close_width 1000000%Z (362422 / 10 ^ 6) (362423 / 10 ^ 6). Qed.
Lemma width_omega_neutral_pion_photon K : matrix_elements "OmegaPi0Gamma" = Ok K -> width_ok omega neutral_pion photon K.
Proof. close_width 84000%Z (379685 / 10 ^ 6) (379686 / 10 ^ 6). Qed.
Lemma width_eta_prime_neutral_rho_photon K : matrix_elements "EtaPrimeRho0Gamma" = Ok K -> width_ok eta_prime neutral_rho photon K.
Proof. close_width 289000%Z (164942 / 10 ^ 6) (164943 / 10 ^ 6). Qed.
Lemma width_phi_charged_kaon_charged_kaon K : matrix_elements "PhiKPlusKMin" = Ok K -> width_ok phi charged_kaon charged_kaon K.
Proof. close_width 489000%Z (126916 / 10 ^ 6) (126917 / 10 ^ 6). Qed.
Lemma width_phi_kaon_long_kaon_short K : matrix_elements "PhiK0LK0S" = Ok K -> width_ok phi kaon_long kaon_short K.
Proof. close_width 342000%Z (110489 / 10 ^ 6) (110490 / 10 ^ 6). Qed.
Lemma width_phi_neutral_rho_neutral_pion K : matrix_elements "PhiRho0Pi0" = Ok K -> width_ok phi neutral_rho neutral_pion K.
Proof. close_width 153200%Z (178404 / 10 ^ 6) (178405 / 10 ^ 6). Qed.
Lemma width_neutral_pion K : neutral_pion_K neutral_pion = Ok K -> width_ok neutral_pion photon photon K.
Proof.
  intros HK. pose proof PI_bounds as [P1 P2].
  assert (Q1 : (31415 / 10000) ^ 2 <= PI ^ 2 <= (31416 / 10000) ^ 2) by (split; apply pow_incr; lra).
  assert (HB : 52825 / 10 ^ 12 <= K <= 52832 / 10 ^ 12).
  { unfold neutral_pion_K in HK. change (decay_constant neutral_pion) with (Ok (1302 / 10 * MeV)) in HK. cbn [rbind] in HK. unfold pydiv in HK.
    assert (HN : 2 * PI ^ 2 * (1302 / 10 * MeV) ^ 2 = PI ^ 2 * (2 * (1302 / 10 ^ 4) ^ 2)) by (unfold MeV, eV; field).
    rewrite HN in HK. assert (HP : 0 < PI ^ 2 * (2 * (1302 / 10 ^ 4) ^ 2)) by lra.
    destruct (Req_EM_T _ 0) as [H|_]; [lra|].
    assert (K = alpha ^ 2 * MatrixModel.mass neutral_pion ^ 4 / (PI ^ 2 * (2 * (1302 / 10 ^ 4) ^ 2))) as -> by congruence.
    unfold alpha. split; [apply (proj1 (Rle_div_r _ _ _ HP))|apply (proj2 (Rle_div_l _ _ _ HP))]; numbers; lra. }
  clear HK Q1 P1 P2. intros z tau q HZ HT Hq HE. known_value HT.
  assert (z = 988230%Z) as -> by (vm_compute in HZ; congruence). clear HZ.
  apply (q_bounds _ _ _ _ (67490 / 10 ^ 6) (67490 / 10 ^ 6)) in HE; [|numbers; lra..]. unfold dofs.
  apply (width_close _ _ _ _ _ _ (67490 / 10 ^ 6) (67490 / 10 ^ 6)); [numbers; lra..| |]; numbers; lra.
Qed.
