(* C139: the matrix elements of the decays of mesons into three particles. *)
From Coq Require Import ZArith Reals Lra.
From Coquelicot Require Import Coquelicot.
From Verif Require Import Base CrossModel ParamsModel LibModel LibProofs Lib2Proofs MatrixModel WidthModel WidthProofs WidthProps DalitzSpec DalitzProofs.
Open Scope R_scope.

Lemma rate_close K A m d tau br lo hi : 0 < m -> 0 < d -> lo <= A <= hi -> 0 <= K -> 0 <= tau -> 0 <= br ->
  br * (39 / 40) * (31416 / 10000) ^ 3 <= K / (256 * m ^ 3) / d * tau * lo -> K / (256 * m ^ 3) / d * tau * hi <= br * (41 / 40) * (31415 / 10000) ^ 3 ->
  Rabs (three_body_rate K A m / d * tau - br) <= br / 40.
Proof.
  intros Hm Hd [Hl Hh] HK Ht Hb X Y. pose proof PI_bounds as [P1 P2].
  assert (HP : (31415 / 10000) ^ 3 <= PI ^ 3 <= (31416 / 10000) ^ 3) by (split; apply pow_incr; lra).
  set (c := K / (256 * m ^ 3) / d * tau) in *.
  assert (Hc : 0 <= c).
  { unfold c. assert (0 < m ^ 3) by (now apply pow_lt). apply Rmult_le_pos; [|exact Ht]. apply Rmult_le_pos; [apply Rmult_le_pos; [exact HK|]|]; left; apply Rinv_0_lt_compat; lra. }
  assert (E : three_body_rate K A m / d * tau = c * A / PI ^ 3) by (unfold three_body_rate, c; field; repeat split; lra). rewrite E.
  assert (P0 : 0 < PI ^ 3) by lra.
  assert (c * lo <= c * A <= c * hi) by (split; apply Rmult_le_compat_l; lra).
  assert (L : br * (39 / 40) <= c * A / PI ^ 3) by (apply (proj1 (Rle_div_r _ _ _ P0)); apply Rle_trans with (br * (39 / 40) * (31416 / 10000) ^ 3); [apply Rmult_le_compat_l|]; lra).
  assert (U : c * A / PI ^ 3 <= br * (41 / 40)) by (apply (proj2 (Rle_div_l _ _ _ P0)); apply Rle_trans with (br * (41 / 40) * (31415 / 10000) ^ 3); [|apply Rmult_le_compat_l]; lra).
  apply Rabs_le. lra.
Qed.

Definition width3_ok (p b c d : lib) (K : R) : Prop := exists z tau A,
  branching p [b; c; d] = Ok (Some z) /\ lifetime p = Ok tau /\
  dalitz_area_is (MatrixModel.mass p) (MatrixModel.mass b) (MatrixModel.mass c) (MatrixModel.mass d) A /\
  Rabs (three_body_rate K A (MatrixModel.mass p) / dofs p * tau - IZR z / 10 ^ 6) <= IZR z / 10 ^ 6 / 40.

Lemma area_of m a b c m' a' b' c' S : dalitz_area_is m a b c S -> m = m' -> a = a' -> b = b' -> c = c' -> dalitz_area_is m' a' b' c' S.
Proof. now intros H -> -> -> ->. Qed.
Ltac close_three m a b c k :=
  let HK := fresh in let S := fresh in let HS := fresh in
  intros HK; known_value HK; destruct (area_exists m a b c ltac:(lia) ltac:(lia) ltac:(lia) ltac:(lia) ltac:(lia) (1 / 1000000) ltac:(lra)) as (S & HS);
  eexists; eexists; exists S; split; [vm_compute; reflexivity|]; split; [reflexivity|]; split;
  [refine (area_of _ _ _ _ _ _ _ _ S HS _ _ _ _); numbers; cbn [smass sp electron neutrino_e]; field
  |apply (area_sound m a b c ltac:(lia) ltac:(lia) ltac:(lia) ltac:(lia) ltac:(lia) (1 / 1000000) ltac:(lra) k) in HS;
   let v := eval vm_compute in (area_bounds m a b c k) in
   let lo := eval cbn in (fst v) in let hi := eval cbn in (snd v) in
   assert (area_bounds m a b c k = (lo, hi)) as Hv by (vm_cast_no_check (eq_refl (lo, hi)));
   rewrite Hv in HS; cbn [fst snd] in HS; clear Hv; unfold dofs;
   apply (rate_close _ _ _ _ _ _ (IZR lo * (1 / 1000000) ^ 4) (IZR hi * (1 / 1000000) ^ 4)); [numbers; lra|numbers; lra|exact HS|numbers; lra|numbers; lra|lra| |]; numbers; lra].

Lemma width_kaon_e K : matrix_elements "KaonMinPi0ElecNue" = Ok K -> width3_ok charged_kaon neutral_pion electron neutrino_e K.
Proof. close_three 493677%Z 134980%Z 511%Z 0%Z 600%nat. Qed.
Lemma width_KaonMinPiPlusTwoPiMin K : matrix_elements "KaonMinPiPlusTwoPiMin" = Ok K -> width3_ok charged_kaon charged_pion charged_pion charged_pion K.
Proof. close_three 493677%Z 139570%Z 139570%Z 139570%Z 600%nat. Qed.
Lemma width_KaonLPiPlusElecNue K : matrix_elements "KaonLPiPlusElecNue" = Ok K -> width3_ok kaon_long charged_pion electron neutrino_e K.
Proof. close_three 497611%Z 139570%Z 511%Z 0%Z 600%nat. Qed.
Lemma width_KaonLPiPlusMuonNumu K : matrix_elements "KaonLPiPlusMuonNumu" = Ok K -> width3_ok kaon_long charged_pion muon neutrino_mu K.
Proof. close_three 497611%Z 139570%Z 105658%Z 0%Z 600%nat. Qed.
Lemma width_KaonLThreePi0 K : matrix_elements "KaonLThreePi0" = Ok K -> width3_ok kaon_long neutral_pion neutral_pion neutral_pion K.
Proof. close_three 497611%Z 134980%Z 134980%Z 134980%Z 600%nat. Qed.
Lemma width_KaonLPiPlusPiMinPi0 K : matrix_elements "KaonLPiPlusPiMinPi0" = Ok K -> width3_ok kaon_long neutral_pion charged_pion charged_pion K.
Proof. close_three 497611%Z 134980%Z 139570%Z 139570%Z 600%nat. Qed.
Lemma width_EtaThreePi0 K : matrix_elements "EtaThreePi0" = Ok K -> width3_ok eta neutral_pion neutral_pion neutral_pion K.
Proof. close_three 547860%Z 134980%Z 134980%Z 134980%Z 600%nat. Qed.
Lemma width_EtaPiPlusPiMinPi0 K : matrix_elements "EtaPiPlusPiMinPi0" = Ok K -> width3_ok eta neutral_pion charged_pion charged_pion K.
Proof. close_three 547860%Z 134980%Z 139570%Z 139570%Z 600%nat. Qed.
Lemma width_EtaPiPlusPiMinGamma K : matrix_elements "EtaPiPlusPiMinGamma" = Ok K -> width3_ok eta photon charged_pion charged_pion K.
Proof. close_three 547860%Z 0%Z 139570%Z 139570%Z 600%nat. Qed.
Lemma width_OmegaPiPlusPiMinPi0 K : matrix_elements "OmegaPiPlusPiMinPi0" = Ok K -> width3_ok omega charged_pion charged_pion neutral_pion K.
Proof. close_three 782650%Z 139570%Z 139570%Z 134980%Z 600%nat. Qed.
Lemma width_EtaPrimePiPlusPiMinEta K : matrix_elements "EtaPrimePiPlusPiMinEta" = Ok K -> width3_ok eta_prime eta charged_pion charged_pion K.
Proof. close_three 957780%Z 547860%Z 139570%Z 139570%Z 600%nat. Qed.
Lemma width_EtaPrimeTwoPi0Eta K : matrix_elements "EtaPrimeTwoPi0Eta" = Ok K -> width3_ok eta_prime neutral_pion neutral_pion eta K.
Proof. close_three 957780%Z 134980%Z 134980%Z 547860%Z 600%nat. Qed.

Opaque matrix_elements width3_ok.
Lemma three_body_ok m t K p b c d : In (t, Ok K) (meson_Ms (lib_of m)) -> tparts t = ([p; b], [c; d]) -> width3_ok p b c d K.
Proof.
  intros I Ht.
  destruct m; cbn -[neutral_pion_K charged_pion_K matrix_elements] in I; each I;
    (assert (HK : _ = Ok K) by (exact (f_equal snd I))); apply (f_equal fst) in I; cbn [fst snd] in I, HK; subst t; try discriminate Ht;
    (assert (p = _) as -> by (exact (f_equal (fun x => hd photon (fst x)) (eq_sym Ht)))); (assert (b = _) as -> by (exact (f_equal (fun x => last (fst x) photon) (eq_sym Ht))));
    (assert (c = _) as -> by (exact (f_equal (fun x => hd photon (snd x)) (eq_sym Ht)))); (assert (d = _) as -> by (exact (f_equal (fun x => last (snd x) photon) (eq_sym Ht))));
    cbn [fst snd hd last tparts].
  all: first [apply width_kaon_e|apply width_KaonMinPiPlusTwoPiMin|apply width_KaonLPiPlusElecNue|apply width_KaonLPiPlusMuonNumu|apply width_KaonLThreePi0|apply width_KaonLPiPlusPiMinPi0|apply width_EtaThreePi0|apply width_EtaPiPlusPiMinPi0|apply width_EtaPiPlusPiMinGamma|apply width_OmegaPiPlusPiMinPi0|apply width_EtaPrimePiPlusPiMinEta|apply width_EtaPrimeTwoPi0Eta]; exact HK.
Qed.
Transparent matrix_elements width3_ok.

(* the decay of a meson at rest into three particles, with the amplitude the
   library gives, takes place at the rate BR / lifetime of the library, to 2.5
   per cent *)
Theorem C139_three_body : forall m t K p b c d, In (t, Ok K) (meson_Ms (lib_of m)) -> tparts t = ([p; b], [c; d]) ->
  exists z tau A, branching p [b; c; d] = Ok (Some z) /\ lifetime p = Ok tau /\
    dalitz_area_is (MatrixModel.mass p) (MatrixModel.mass b) (MatrixModel.mass c) (MatrixModel.mass d) A /\
    Rabs (three_body_rate K A (MatrixModel.mass p) / (if majorana (sp p) then IZR (ldof p) else IZR (ldof p) / 2) * tau - IZR z / 10 ^ 6) <= IZR z / 10 ^ 6 / 40.
Proof. exact three_body_ok. Qed.
Print Assumptions C139_three_body.

(* the three neutral pions of the eta, which has no spin *)
Example C139_three_body_example : exists K, In (tmpl22 eta neutral_pion neutral_pion neutral_pion false false false false, Ok K) (meson_Ms eta) /\
  branching eta [neutral_pion; neutral_pion; neutral_pion] = Ok (Some 326800%Z) /\ 3 * MatrixModel.mass neutral_pion < MatrixModel.mass eta.
Proof. eexists. split; [cbn -[matrix_elements]; right; left; reflexivity|]. split; [vm_compute; reflexivity|numbers; lra]. Qed.

(* every decay into three particles meson_interactions builds is in the table *)
Theorem C139_three_body_table : forall E ps out t p b c d, complete E -> meson_interactions E (map lib_of ps) = Ok out -> In t out -> tparts t = ([p; b], [c; d]) ->
  (exists m K, In (t, Ok K) (meson_Ms (lib_of m)) /\ p = lib_of m) \/ (exists ls ns, In t (lepton_interactions ls ns)).
Proof.
  intros E ps out t p b c d HE Ho It Ht. destruct (meson_interactions_count E ps HE) as (out' & Eo & HK & _).
  assert (out' = out) as -> by congruence. destruct (HK t It) as [(m & I)|(ls & ns & _ & _ & I)]; [left|right; now exists ls, ns].
  exists m. assert (HP : p = lib_of m) by (clear - I Ht; destruct m; cbn in I; each I; subst t; try discriminate Ht; exact (f_equal (fun x => hd (lib_of Mpi) (fst x)) (eq_sym Ht))).
  rewrite <- meson_Ms_channels in I. apply in_map_iff in I. destruct I as ((t' & k) & E' & I). cbn in E'. subst t'.
  destruct (meson_Ms_defined _ _ _ I) as (K & ->). now exists K.
Qed.
Print Assumptions C139_three_body_table.
Example C139_three_body_table_example : exists out, meson_interactions (mkEnv lib_leptons lib_neutrinos (map lib_of all_mesons) [photon] 0) [kaon_long] = Ok out /\ In (tmpl22 kaon_long charged_pion muon neutrino_mu false true false true) out.
Proof. eexists. split; [vm_compute; reflexivity|]. cbn. tauto. Qed.

(* the names the table has, and no others *)
Theorem C139_names : forall n, (exists K, matrix_elements n = Ok K) <->
  In n ["EtaThreePi0"; "EtaPiPlusPiMinPi0"; "EtaPiPlusPiMinGamma"; "OmegaPiPlusPiMinPi0"; "EtaPrimePiPlusPiMinEta"; "EtaPrimeTwoPi0Eta"; "KaonMinPi0ElecNue"; "KaonMinPiPlusTwoPiMin"; "KaonLPiPlusElecNue"; "KaonLPiPlusMuonNumu"; "KaonLThreePi0"; "KaonLPiPlusPiMinPi0"; "RhoPlusPiPlusPi0"; "Rho0PiPlusPiMin"; "OmegaPi0Gamma"; "EtaPrimeRho0Gamma"; "PhiKPlusKMin"; "PhiK0LK0S"; "PhiRho0Pi0"; "EtaTwoGamma"; "KaonMinMuonNumu"; "KaonMinPiMinPi0"; "KaonSTwoPi0"; "KaonSPiPlusPiMin"]%string.
Proof.
  intros n. split.
  - intros (K & H). unfold matrix_elements in H.
    repeat match type of H with (if String.eqb n ?s then _ else _) = _ => destruct (String.eqb_spec n s) as [->|_]; [cbn [In]; tauto|] end. discriminate H.
  - intros I. cbn [In] in I. repeat (destruct I as [<-|I]; [eexists; reflexivity|]). contradiction.
Qed.
Print Assumptions C139_names.
Theorem C139_no_name : forall n, (forall K, matrix_elements n <> Ok K) -> matrix_elements n = Raise KeyError.
Proof.
  intros n H. unfold matrix_elements in *.
  repeat match goal with |- (if String.eqb n ?s then _ else _) = _ => destruct (String.eqb n s); [exfalso; eapply H; reflexivity|] end. reflexivity.
Qed.
Print Assumptions C139_no_name.
Example C139_no_name_example : matrix_elements "KaonSThreePi0" = Raise KeyError.
Proof. reflexivity. Qed.
