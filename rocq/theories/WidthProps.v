(* C139: the matrix elements of the meson decays against lifetimes and branching
   ratios. *)
From Coq Require Import Reals Lra.
From Coquelicot Require Import Coquelicot.
From Verif Require Import Base FunctionalModel BoundsModel BoundsProofs3 Integrate3Model Integrate3Props CrossModel ParamsModel LibModel LibProofs Lib2Proofs MatrixModel WidthModel WidthProofs.
Open Scope R_scope.

Lemma neutral_pion_K_ok : exists K, neutral_pion_K neutral_pion = Ok K.
Proof.
  unfold neutral_pion_K. change (decay_constant neutral_pion) with (Ok (1302 / 10 * MeV)). cbn [rbind]. unfold pydiv.
  destruct (Req_EM_T _ 0) as [H|_]; [|eexists; reflexivity]. exfalso. pose proof PI_RGT_0 as HP.
  assert (0 < PI ^ 2) by (now apply pow_lt). assert (0 < (1302 / 10 * MeV) ^ 2) by (apply pow_lt; unfold MeV, eV; lra).
  assert (0 < PI ^ 2 * (1302 / 10 * MeV) ^ 2) by (now apply Rmult_lt_0_compat). lra.
Qed.
Lemma charged_pion_K_ok : exists K, charged_pion_K charged_pion muon = Ok K.
Proof. unfold charged_pion_K, pydiv. destruct (Req_EM_T _ 0) as [H|_]; [exfalso; revert H; numbers; lra|eexists; reflexivity]. Qed.
Ltac each I := repeat (destruct I as [I|I]; [|]); try contradiction.
Lemma meson_Ms_defined m t k : In (t, k) (meson_Ms (lib_of m)) -> exists K, k = Ok K.
Proof.
  intros I. destruct m; cbn -[neutral_pion_K charged_pion_K matrix_elements] in I; each I;
    (assert (k = _) as -> by (symmetry; exact (f_equal snd I))); cbn [snd]; first [exact neutral_pion_K_ok|exact charged_pion_K_ok|eexists; reflexivity].
Qed.
Lemma meson_Ms_channels m : map fst (meson_Ms (lib_of m)) = channels m.
Proof. destruct m; reflexivity. Qed.

(* every two-body decay meson_interactions builds is in the table *)
Theorem C139_table : forall E ps out t p b c, complete E -> meson_interactions E (map lib_of ps) = Ok out -> In t out -> tparts t = ([p], [b; c]) ->
  exists m, p = lib_of m /\ exists K, In (t, Ok K) (meson_Ms (lib_of m)).
Proof.
  intros E ps out t p b c HE Ho It Ht. destruct (meson_interactions_count E ps HE) as (out' & Eo & HK & _).
  assert (out' = out) as -> by congruence. destruct (HK t It) as [(m & I)|(ls & ns & _ & _ & I)].
  - exists m. split.
    + clear - I Ht. destruct m; cbn in I; each I; subst t; try discriminate Ht; exact (f_equal (fun x => hd (lib_of Mpi) (fst x)) (eq_sym Ht)).
    + rewrite <- meson_Ms_channels in I. apply in_map_iff in I. destruct I as ((t' & k) & E' & I). cbn in E'. subst t'.
      destruct (meson_Ms_defined _ _ _ I) as (K & ->). now exists K.
  - apply lepton_interactions_in in I. destruct I as (n & on & l & ol & -> & _). discriminate Ht.
Qed.
Print Assumptions C139_table.
Example C139_table_example : exists out, meson_interactions (mkEnv lib_leptons lib_neutrinos (map lib_of all_mesons) [photon] 0) [charged_kaon] = Ok out /\ In (tmpl12 charged_kaon muon neutrino_mu false false true) out.
Proof. eexists. split; [vm_compute; reflexivity|]. cbn. tauto. Qed.

(* the decay of a meson at rest, with the amplitude the library gives, takes
   place at the rate BR / lifetime of the library, to 2.5 per cent *)
Theorem C139_widths : forall m t K p b c, In (t, Ok K) (meson_Ms (lib_of m)) -> tparts t = ([p], [b; c]) ->
  exists z tau, branching p [b; c] = Ok (Some z) /\ lifetime p = Ok tau /\ forall q, 0 <= q ->
    sqrt (q ^ 2 + MatrixModel.mass b ^ 2) + sqrt (q ^ 2 + MatrixModel.mass c ^ 2) = MatrixModel.mass p ->
    Rabs (rest_rate K q (MatrixModel.mass p) / (if majorana (sp p) then IZR (ldof p) else IZR (ldof p) / 2) * tau - IZR z / 10 ^ 6) <= IZR z / 10 ^ 6 / 40.
Proof.
  intros m t K p b c I Ht.
  assert (G : width_ok p b c K /\ (exists z, branching p [b; c] = Ok (Some z)) /\ exists tau, lifetime p = Ok tau).
  { destruct m; cbn -[neutral_pion_K charged_pion_K matrix_elements] in I; each I;
      (assert (HK : _ = Ok K) by (exact (f_equal snd I))); apply (f_equal fst) in I; cbn [fst snd] in I, HK; subst t; try discriminate Ht;
      (assert (p = _) as -> by (exact (f_equal (fun x => hd photon (fst x)) (eq_sym Ht)))); (assert (b = _) as -> by (exact (f_equal (fun x => hd photon (snd x)) (eq_sym Ht))));
      (assert (c = _) as -> by (exact (f_equal (fun x => last (snd x) photon) (eq_sym Ht)))); cbn [fst snd hd last tparts];
      (split; [|split; [eexists; vm_compute; reflexivity|eexists; reflexivity]]).
    all: first [apply width_neutral_pion|apply width_charged_pion_muon_neutrino_mu|apply width_charged_kaon_muon_neutrino_mu|apply width_charged_kaon_charged_pion_neutral_pion|apply width_kaon_short_neutral_pion_neutral_pion|apply width_kaon_short_charged_pion_charged_pion|apply width_eta_photon_photon|apply width_neutral_rho_charged_pion_charged_pion|apply width_charged_rho_charged_pion_neutral_pion|apply width_omega_neutral_pion_photon|apply width_eta_prime_neutral_rho_photon|apply width_phi_charged_kaon_charged_kaon|apply width_phi_kaon_long_kaon_short|apply width_phi_neutral_rho_neutral_pion]; exact HK. }
  destruct G as (HW & (z & Hz) & tau & Ht'). exists z, tau. split; [exact Hz|]. split; [exact Ht'|]. intros q Hq HE. exact (HW z tau q Hz Ht' Hq HE).
Qed.
Print Assumptions C139_widths.

(* the same of the array the collision integral returns (C133), for every grid
   that starts at zero, every scale factor and expansion rate *)
Theorem C139_rates : forall m t K p b c q (rs : nat -> participant) a aT H max_2 x ys Is cs,
  In (t, Ok K) (meson_Ms (lib_of m)) -> tparts t = ([p], [b; c]) ->
  0 < a -> 0 < aT -> H <> 0 -> x <> 0 ->
  BoundsModel.mass (rs 0%nat) = compiled_mass a aT (MatrixModel.mass p) -> BoundsModel.mass (rs 1%nat) = compiled_mass a aT (MatrixModel.mass b) ->
  (forall n, (2 <= n)%nat -> BoundsModel.mass (rs n) = compiled_mass a aT (MatrixModel.mass c)) ->
  sides3_are rs (-1) 1 1 -> (forall n p, exists x, occ (rs n) p = Ok x) ->
  0 <= q -> sqrt (q ^ 2 + MatrixModel.mass b ^ 2) + sqrt (q ^ 2 + MatrixModel.mass c ^ 2) = MatrixModel.mass p ->
  Forall (fun y => 0 < y) ys -> Forall2 (fun y I => exists st, point3_is rs Ff_vacuum max_2 st (compiled_momentum aT y) I) (0 :: ys) Is ->
  constants3 K a aT H (MatrixModel.mass p) (majorana (sp p)) (IZR (ldof p)) 1 x true (List.length (0 :: ys)) = Ok cs ->
  exists z tau r, branching p [b; c] = Ok (Some z) /\ lifetime p = Ok tau /\ Rabs (r * tau - IZR z / 10 ^ 6) <= IZR z / 10 ^ 6 / 40 /\
    multiply Is cs = map (fun y => - (dilated r (MatrixModel.mass p) a y / H)) (0 :: ys).
Proof.
  intros m t K p b c q rs a aT H max_2 x ys Is cs I Ht Ha HT HH Hx M0 M1 M2 Hs Ho Hq HE Hys HI HC.
  destruct (C139_widths m t K p b c I Ht) as (z & tau & Hz & Htau & HW). specialize (HW q Hq HE).
  exists z, tau. eexists. split; [exact Hz|]. split; [exact Htau|]. split; [exact HW|].
  assert (G : (0 < ldof p)%Z /\ MatrixModel.mass b + MatrixModel.mass c < MatrixModel.mass p /\ 0 <= MatrixModel.mass b /\ 0 <= MatrixModel.mass c).
  { clear - I Ht. apply (f_equal (fun x => x)) in Ht. apply (in_map fst) in I. rewrite meson_Ms_channels in I. cbn [fst] in I.
    destruct m; cbn in I; each I; subst t; try discriminate Ht;
      (assert (p = _) as -> by (exact (f_equal (fun x => hd photon (fst x)) (eq_sym Ht)))); (assert (b = _) as -> by (exact (f_equal (fun x => hd photon (snd x)) (eq_sym Ht))));
      (assert (c = _) as -> by (exact (f_equal (fun x => last (snd x) photon) (eq_sym Ht)))); cbn [fst snd hd last tparts]; (split; [reflexivity|]); numbers; lra. }
  destruct G as (GD & GT & GB & GC). assert (0 < IZR (ldof p)) by (now apply IZR_lt).
  rewrite (C133_whole_grid rs (fun n => match n with O => MatrixModel.mass p | 1%nat => MatrixModel.mass b | _ => MatrixModel.mass c end)
     a aT H K q max_2 (majorana (sp p)) (IZR (ldof p)) 1 x true ys Is cs); try assumption; try lra.
  - apply map_ext. intros y. unfold dilated. destruct (majorana (sp p)); field; repeat split; try lra; try exact HH; apply Rgt_not_eq, sqrt_lt_R0;
      pose proof (pow2_ge_0 (y / a)); assert (0 < MatrixModel.mass p ^ 2) by (apply pow_lt; lra); lra.
  - intros [|[|n]]; lra.
  - intros [|[|n]]; [exact M0|exact M1|apply M2; lia].
Qed.
Print Assumptions C139_rates.

(* the muon: G_F^2 m^5 / (192 pi^3), the rate of C138 *)
Theorem C139_muon : exists tau, lifetime muon = Ok tau /\ Rabs (G_Fermi ^ 2 * MatrixModel.mass muon ^ 5 / (192 * PI ^ 3) * tau - 1) <= 1 / 200.
Proof.
  eexists. split; [reflexivity|]. pose proof PI_bounds as [P1 P2].
  assert ((31415 / 10000) ^ 3 <= PI ^ 3 <= (31416 / 10000) ^ 3) by (split; apply pow_incr; lra).
  replace G_Fermi with (1166 / 10 ^ 8) by (unfold G_Fermi, MeV, eV; field).
  assert (HP : 0 < 192 * PI ^ 3) by lra.
  match goal with |- Rabs (?n / ?d * ?t - 1) <= _ => replace (n / d * t) with (n * t / d) by (unfold Rdiv; ring) end.
  assert (L : 199 / 200 <= (1166 / 10 ^ 8) ^ 2 * MatrixModel.mass muon ^ 5 * (2197 / 1000 / 10 ^ 6 * second) / (192 * PI ^ 3)) by (apply (proj1 (Rle_div_r _ _ _ HP)); numbers; lra).
  assert (U : (1166 / 10 ^ 8) ^ 2 * MatrixModel.mass muon ^ 5 * (2197 / 1000 / 10 ^ 6 * second) / (192 * PI ^ 3) <= 201 / 200) by (apply (proj2 (Rle_div_l _ _ _ HP)); numbers; lra).
  apply Rabs_le. lra.
Qed.
Print Assumptions C139_muon.

(* the eta at rest: two photons of half its mass *)
Example C139_example : exists K q, In (tmpl12 eta photon photon false false false, Ok K) (meson_Ms eta) /\ 0 < q /\
  sqrt (q ^ 2 + MatrixModel.mass photon ^ 2) + sqrt (q ^ 2 + MatrixModel.mass photon ^ 2) = MatrixModel.mass eta /\ branching eta [photon; photon] = Ok (Some 394100%Z).
Proof.
  eexists. exists (MatrixModel.mass eta / 2). split; [cbn -[matrix_elements]; left; reflexivity|]. split; [numbers; lra|]. split; [|vm_compute; reflexivity].
  replace ((MatrixModel.mass eta / 2) ^ 2 + MatrixModel.mass photon ^ 2) with ((MatrixModel.mass eta / 2) ^ 2) by (unfold MatrixModel.mass; cbn [smass sp photon]; ring).
  rewrite sqrt_pow2 by (numbers; lra). field.
Qed.
