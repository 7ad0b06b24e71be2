(* C122-C124, C127. Specification: `nonneg_amplitudes` (Matrix2Proofs) asks that
   the interaction can be built and that, for each of its integrals and all
   momenta on the mass shells with positive energies that conserve
   four-momentum (`physical`, MatrixProofs), the squared amplitude is not
   negative. The signs of the constant amplitudes are stated by the masses. *)
From Coq Require Import Reals Lra Permutation Psatz.
From Verif Require Import Base CrossModel CrossProofs CrossProofs2 CrossProofs3 CrossProofs4 ParamsModel LibModel LibProofs Lib2Proofs Lib3Proofs MatrixModel MatrixProofs Matrix2Proofs.
Open Scope R_scope.

(* ---------- C127 ---------- *)
Theorem C127_standard : forall ls ns t Ms, told_apart (ls ++ ns) -> (forall n, In n ns -> smass (sp n) = 0%Z) ->
  In (t, Ms) (neutrino_interactions_M ls ns ++ lepton_interactions_M ls ns) -> nonneg_amplitudes t Ms.
Proof. exact standard_nonneg. Qed.
Print Assumptions C127_standard.
Theorem C127_sterile : forall thetas s ls ns t Ms, told_apart (s :: ls ++ ns) -> (forall n, In n ns -> smass (sp n) = 0%Z) ->
  In (t, Ms) (sterile_leptons_interactions_M thetas s ns ls) -> nonneg_amplitudes t Ms.
Proof. exact sterile_leptons_nonneg. Qed.
Print Assumptions C127_sterile.
Theorem C127_quarks : forall thetas s ls ns qs out t Ms, told_apart (s :: ls ++ ns ++ qs) -> (forall n, In n ns -> smass (sp n) = 0%Z) ->
  sterile_quark_interactions_M thetas s ns ls qs = Ok out -> In (t, Ms) out -> nonneg_amplitudes t Ms.
Proof. exact sterile_quarks_nonneg. Qed.
Print Assumptions C127_quarks.
Theorem C127_baryons : forall n p nu e Ms, told_apart [n; p; e; nu] -> baryons_Ms = Ok Ms -> nonneg_amplitudes (baryons_interaction n p nu e) Ms.
Proof. exact baryons_nonneg. Qed.
Print Assumptions C127_baryons.
(* these are the interactions of the library *)
Theorem C127_covers : forall thetas s ns ls qs,
  map fst (neutrino_interactions_M ls ns) = neutrino_interactions ls ns /\ map fst (lepton_interactions_M ls ns) = lepton_interactions ls ns /\
  map fst (sterile_leptons_interactions_M thetas s ns ls) = map fst (sterile_leptons_interactions (fun f => nonzero (thetas f)) s ns ls) /\
  (forall out, sterile_quark_interactions_M thetas s ns ls qs = Ok out -> exists out', sterile_quark_interactions (fun f => nonzero (thetas f)) s ns ls qs = Ok out' /\ forall t, In t (map fst out) <-> In t out').
Proof. exact same_templates. Qed.
Print Assumptions C127_covers.
Example C127_case : told_apart (lib_leptons ++ lib_neutrinos) /\ (forall n, In n lib_neutrinos -> smass (sp n) = 0%Z) /\
  length (neutrino_interactions_M lib_leptons lib_neutrinos ++ lepton_interactions_M lib_leptons lib_neutrinos) = 21%nat /\
  exists Ms, baryons_Ms = Ok Ms.
Proof.
  split; [exact told_library|]. split; [apply Forall_forall; repeat constructor|]. split; [vm_compute; reflexivity|]. eexists. reflexivity.
Qed.

(* ---------- C122 ---------- *)
Lemma MeV_pos : 0 < MeV.
Proof. unfold MeV, eV. assert (0 < 10 ^ 9) by (apply pow_lt; lra). assert (0 < / 10 ^ 9) by now apply Rinv_0_lt_compat. nra. Qed.
Lemma decay_constant_nonzero p f : decay_constant p = Ok f -> f <> 0.
Proof.
  assert (E : 0 < MeV) by exact MeV_pos.
  unfold decay_constant. repeat match goal with |- context [if ?b then _ else _] => destruct b; [intros H; injection H as <-; nra|] end. discriminate.
Qed.
Lemma G_pos : 0 < G_Fermi.
Proof. pose proof weak_pos as W. destruct (Rtotal_order 0 G_Fermi) as [H|[H|H]]; [exact H|rewrite <- H in W; lra|]. exfalso. revert H. unfold G_Fermi, MeV, eV. apply Rle_not_lt.
  assert (0 < 10 ^ 9) by (apply pow_lt; lra). assert (0 < / 10 ^ 9) by now apply Rinv_0_lt_compat. left.
  apply Rdiv_lt_0_compat; [apply Rdiv_lt_0_compat; [lra|apply pow_lt; lra]|]. apply pow_lt. nra. Qed.
Lemma sq_pos x : x <> 0 -> 0 < x ^ 2.
Proof. intros H. replace (x ^ 2) with (Rsqr x) by (unfold Rsqr; ring). now apply Rsqr_pos_lt. Qed.
Lemma Ok_inj (A : Type) (a b : A) : Ok a = Ok b -> a = b.
Proof. congruence. Qed.
Lemma nz4 a b c d : a <> 0 -> b <> 0 -> c <> 0 -> d <> 0 -> a * b * c * d <> 0.
Proof. intros. repeat (apply Rmult_integral_contrapositive; split); assumption. Qed.
Ltac unres E := repeat match type of E with rbind ?m _ = _ => let x := fresh "v" in let H := fresh "Hv" in destruct m as [x|] eqn:H; [|discriminate]; cbn [rbind] in E end.
Lemma pydiv_ok a b c : pydiv a b = Ok c -> b <> 0 /\ c = a / b.
Proof. unfold pydiv. destruct (Req_EM_T b 0); [discriminate|]. intros E. injection E as <-. auto. Qed.

Theorem C122_scalars : forall th s l m K, neutral_scalar_K th s m = Ok K \/ charged_scalar_K th s l m = Ok K -> 0 <= K.
Proof.
  intros th s l m K [H|H]; unfold neutral_scalar_K, charged_scalar_K in H; unres H; apply Ok_inj in H; subst K;
    repeat match goal with |- 0 <= ?x ^ 4 => replace (x ^ 4) with ((x ^ 2) ^ 2) by ring | |- 0 <= _ ^ 2 => apply pow2_ge_0 | |- 0 <= Rabs _ => apply Rabs_pos | |- 0 <= _ * _ => apply Rmult_le_pos | |- 0 <= 2 => lra end.
Qed.
Print Assumptions C122_scalars.
Theorem C122_pions : forall m l K, 0 < mass l -> 0 < mass m -> charged_pion_K m l = Ok K -> (0 < K <-> mass l < mass m).
Proof.
  intros m l K Hl Hm H. unfold charged_pion_K in H. cbn [CKM rbind] in H. unres H. apply Ok_inj in H. subst K.
  apply decay_constant_nonzero in Hv. destruct (pydiv_ok _ _ _ Hv0) as (_ & ->). pose proof G_pos as HG.
  assert (P : 0 < 2 * (G_Fermi * v * (974 / 1000)) ^ 2).
  { apply Rmult_lt_0_compat; [lra|]. apply sq_pos. apply Rmult_integral_contrapositive. split; [apply Rmult_integral_contrapositive; split; [lra|assumption]|lra]. }
  replace (mass l ^ 4 * ((mass m / mass l) ^ 2 - 1)) with (mass l ^ 4 * ((mass m / mass l) ^ 2 - 1)) by reflexivity.
  replace (2 * (G_Fermi * v * (974 / 1000)) ^ 2 * mass l ^ 4 * ((mass m / mass l) ^ 2 - 1)) with (2 * (G_Fermi * v * (974 / 1000)) ^ 2 * mass l ^ 2 * (mass m ^ 2 - mass l ^ 2)) by (field; lra).
  assert (Q : 0 < 2 * (G_Fermi * v * (974 / 1000)) ^ 2 * mass l ^ 2) by (apply Rmult_lt_0_compat; [exact P|apply pow_lt; exact Hl]).
  set (c := 2 * (G_Fermi * v * (974 / 1000)) ^ 2 * mass l ^ 2) in *. clearbody c. split; intros H.
  - apply Rnot_le_lt. intros HL. assert (mass m ^ 2 - mass l ^ 2 <= 0) by nra. assert (0 <= c * - (mass m ^ 2 - mass l ^ 2)) by (apply Rmult_le_pos; lra). lra.
  - apply Rmult_lt_0_compat; [exact Q|nra].
Qed.
Print Assumptions C122_pions.
Theorem C122_neutral_pion : forall m K, mass m <> 0 -> neutral_pion_K m = Ok K -> 0 < K.
Proof.
  intros m K Hm H. unfold neutral_pion_K in H. unres H. destruct (pydiv_ok _ _ _ H) as (_ & ->). apply decay_constant_nonzero in Hv.
  apply Rdiv_lt_0_compat.
  - apply Rmult_lt_0_compat; [apply sq_pos; unfold alpha; lra|]. replace (mass m ^ 4) with ((mass m ^ 2) ^ 2) by ring. apply sq_pos. pose proof (sq_pos _ Hm). lra.
  - apply Rmult_lt_0_compat; [|now apply sq_pos]. apply Rmult_lt_0_compat; [lra|]. apply sq_pos. pose proof PI_RGT_0. lra.
Qed.
Print Assumptions C122_neutral_pion.
(* vector mesons: fine for the decays of the sterile neutrino *)
Theorem C122_vectors : forall th s l m K, 0 < mass s -> 0 <= mass l -> 0 <= mass m ->
  (mass m <= mass s -> neutral_vector_K th s m = Ok K -> 0 <= K) /\ (mass l + mass m <= mass s -> charged_vector_K th s l m = Ok K -> 0 <= K).
Proof.
  intros th s l m K Hs Hl Hm. split; intros HM H.
  - unfold neutral_vector_K in H. unres H. apply Ok_inj in H. subst K. destruct (pydiv_ok _ _ _ Hv1) as (_ & ->). set (c := G_Fermi * th * v * v0). clearbody c.
    replace (c ^ 2 * mass s ^ 4 * (1 + 2 * (mass m / mass s) ^ 2) * (1 - (mass m / mass s) ^ 2)) with (c ^ 2 * ((mass s ^ 2 + 2 * mass m ^ 2) * (mass s ^ 2 - mass m ^ 2))) by (field; lra).
    apply Rmult_le_pos; [apply pow2_ge_0|]. apply Rmult_le_pos; nra.
  - unfold charged_vector_K in H. cbn [CKM rbind] in H. unres H. apply Ok_inj in H. subst K. destruct (pydiv_ok _ _ _ Hv0) as (_ & ->). destruct (pydiv_ok _ _ _ Hv1) as (_ & ->). set (c := G_Fermi * th * v * (974 / 1000)). clearbody c.
    set (A := mass s) in *. set (L := mass l) in *. set (M := mass m) in *. clearbody A L M.
    replace (2 * c ^ 2 * A ^ 4 * ((1 - (L / A) ^ 2) ^ 2 + (M / A) ^ 2 * (1 + (L / A) ^ 2) - 2 * (M / A) ^ 4)) with (2 * c ^ 2 * ((A ^ 2 - L ^ 2) ^ 2 + M ^ 2 * (A ^ 2 + L ^ 2) - 2 * M ^ 4)) by (field; lra).
    apply Rmult_le_pos; [pose proof (pow2_ge_0 c); lra|].
    assert (D : 0 <= A - L - M) by lra. set (d := A - L - M) in *. assert (A = L + M + d) by (unfold d; ring). clearbody d. subst A.
    replace (((L + M + d) ^ 2 - L ^ 2) ^ 2 + M ^ 2 * ((L + M + d) ^ 2 + L ^ 2) - 2 * M ^ 4)
      with ((M + d) ^ 2 * (2 * L + M + d) ^ 2 + M ^ 2 * ((L + M + d) ^ 2 + L ^ 2) - 2 * M ^ 4) by ring.
    assert (M ^ 4 <= (M + d) ^ 2 * (2 * L + M + d) ^ 2). { replace (M ^ 4) with (M ^ 2 * M ^ 2) by ring. apply Rmult_le_compat; nra. }
    assert (M ^ 4 <= M ^ 2 * ((L + M + d) ^ 2 + L ^ 2)). { replace (M ^ 4) with (M ^ 2 * M ^ 2) by ring. apply Rmult_le_compat_l; nra. } lra.
Qed.
Print Assumptions C122_vectors.
(* when it is the meson that decays into the sterile neutrino, the constant is
   negative: always, not only for some masses *)
Theorem C122_vectors_refuted : forall th s l m K, th <> 0 -> 0 < mass s -> 0 <= mass l ->
  (mass s < mass m -> neutral_vector_K th s m = Ok K -> K < 0) /\ (mass s + mass l < mass m -> charged_vector_K th s l m = Ok K -> K < 0).
Proof.
  intros th s l m K Ht Hs Hl. pose proof G_pos as HG. assert (HG' : G_Fermi <> 0) by (intros Z; lra). assert (H9 : 974 / 1000 <> 0) by (intros Z; lra). split; intros HM H.
  - unfold neutral_vector_K in H. unres H. apply Ok_inj in H. subst K. destruct (pydiv_ok _ _ _ Hv1) as (_ & ->). apply decay_constant_nonzero in Hv.
    assert (Hk : v0 <> 0) by (revert Hv0; unfold kappa; repeat match goal with |- context [if ?b then _ else _] => destruct b; [intros E; apply Ok_inj in E; subst v0; unfold sin_theta_w_2; intros Z; lra|] end; discriminate).
    set (c := G_Fermi * th * v * v0). assert (Hc : 0 < c ^ 2) by (apply sq_pos; unfold c; apply nz4; assumption). clearbody c.
    replace (c ^ 2 * mass s ^ 4 * (1 + 2 * (mass m / mass s) ^ 2) * (1 - (mass m / mass s) ^ 2)) with (- (c ^ 2 * ((mass s ^ 2 + 2 * mass m ^ 2) * (mass m ^ 2 - mass s ^ 2)))) by (field; lra).
    assert (0 < c ^ 2 * ((mass s ^ 2 + 2 * mass m ^ 2) * (mass m ^ 2 - mass s ^ 2))); [|lra]. apply Rmult_lt_0_compat; [exact Hc|]. apply Rmult_lt_0_compat; nra.
  - unfold charged_vector_K in H. cbn [CKM rbind] in H. unres H. apply Ok_inj in H. subst K. destruct (pydiv_ok _ _ _ Hv0) as (_ & ->). destruct (pydiv_ok _ _ _ Hv1) as (_ & ->). apply decay_constant_nonzero in Hv.
    set (c := G_Fermi * th * v * (974 / 1000)). assert (Hc : 0 < c ^ 2) by (apply sq_pos; unfold c; apply nz4; assumption). clearbody c.
    set (A := mass s) in *. set (L := mass l) in *. set (M := mass m) in *. clearbody A L M.
    replace (2 * c ^ 2 * A ^ 4 * ((1 - (L / A) ^ 2) ^ 2 + (M / A) ^ 2 * (1 + (L / A) ^ 2) - 2 * (M / A) ^ 4)) with (- (2 * c ^ 2 * (2 * M ^ 4 - (A ^ 2 - L ^ 2) ^ 2 - M ^ 2 * (A ^ 2 + L ^ 2)))) by (field; lra).
    assert (0 < 2 * M ^ 4 - (A ^ 2 - L ^ 2) ^ 2 - M ^ 2 * (A ^ 2 + L ^ 2)); [|nra].
    assert (D : 0 < M - A - L) by lra. set (d := M - A - L) in *. assert (M = A + L + d) by (unfold d; ring). clearbody d. subst M. set (M := A + L + d) in *.
    assert (H1 : (A ^ 2 - L ^ 2) ^ 2 <= M ^ 4). { replace ((A ^ 2 - L ^ 2) ^ 2) with ((A - L) ^ 2 * (A + L) ^ 2) by ring. replace (M ^ 4) with (M ^ 2 * M ^ 2) by ring.
      assert ((A + L) ^ 2 <= M ^ 2) by (unfold M; nra). assert ((A - L) ^ 2 <= M ^ 2) by (unfold M; nra). apply Rmult_le_compat; try assumption; apply pow2_ge_0. }
    assert (H2 : A ^ 2 + L ^ 2 < M ^ 2) by (unfold M; nra). assert (H3 : 0 < M ^ 2) by nra.
    assert (M ^ 2 * (A ^ 2 + L ^ 2) < M ^ 2 * M ^ 2) by (apply Rmult_lt_compat_l; assumption). replace (M ^ 4) with (M ^ 2 * M ^ 2) in * by ring. lra.
Qed.
Print Assumptions C122_vectors_refuted.
Example C122_case : exists K, charged_vector_K (/ 100) (dirac_sterile_neutrino 50 300000000) electron charged_rho = Ok K /\
  mass (dirac_sterile_neutrino 50 300000000) + mass electron < mass charged_rho /\ 0 < mass (dirac_sterile_neutrino 50 300000000) /\ 0 < mass electron < mass charged_pion.
Proof.
  assert (E : 0 < eV) by (pose proof MeV_pos; unfold MeV in *; lra).
  assert (N : mass (dirac_sterile_neutrino 50 300000000) <> 0) by (unfold mass; cbn; apply Rmult_integral_contrapositive; split; lra).
  eexists. split; [unfold charged_vector_K; cbn [CKM rbind]; change (decay_constant charged_rho) with (@Ok R (209 * MeV)); cbn [rbind]; unfold pydiv; destruct (Req_EM_T (mass (dirac_sterile_neutrino 50 300000000)) 0); [contradiction|]; cbn [rbind]; reflexivity|].
  unfold mass; cbn; repeat split; nra.
Qed.

(* ---------- C123 ---------- *)
Lemma traverse_hit (A B : Type) (f : A -> result B) l out x : traverse f l = Ok out -> In x l -> exists y, f x = Ok y /\ In y out.
Proof.
  revert out. induction l as [|a l IH]; intros out E I; [destruct I|]. cbn [traverse] in E. destruct (f a) as [y|] eqn:Ea; [|discriminate]. cbn [rbind] in E.
  destruct (traverse f l) as [r|]; [|discriminate]. cbn [rbind] in E. injection E as <-. destruct I as [->|I]; [exists y; split; [exact Ea|now left]|].
  destruct (IH r eq_refl I) as (z & Ez & Iz). exists z. split; [exact Ez|now right].
Qed.
Lemma nonzero_true x : x <> 0 -> nonzero x = true.
Proof. unfold nonzero. destruct (Req_EM_T x 0); [contradiction|reflexivity]. Qed.
(* what the included interactions of charged mesons carry *)
Theorem C123_charged : forall thetas s ns n leptons mesons out l m t,
  sterile_hadrons_interactions thetas s (ns ++ [n]) leptons mesons = Ok out -> In l leptons -> In m mesons -> Q3 m = (-3)%Z -> thetas (flav l) <> 0 ->
  In t (sterile_charged_meson s l m) ->
  exists K, In (t, K) out /\ ((mtyp m = Some Scalar /\ charged_scalar_K (thetas (flav l)) s l m = Ok K) \/ (mtyp m = Some Vector /\ charged_vector_K (thetas (flav n)) s l m = Ok K)).
Proof.
  intros thetas s ns n leptons mesons out l m t E Il Im Hq Ht It. unfold sterile_hadrons_interactions in E. unres E. injection E as <-.
  destruct (traverse_hit _ _ _ _ _ (l, m) Hv0) as (y & Ey & Iy); [now apply in_prod|]. cbn [fst snd] in Ey. rewrite nonzero_true in Ey by exact Ht.
  unfold hadrons_charged in Ey. rewrite Hq in Ey. cbn [Z.eqb Pos.eqb] in Ey. rewrite rev_unit in Ey.
  assert (W : forall K, y = with_K (sterile_charged_meson s l m) K -> In (t, K) (concat v ++ concat v0)).
  { intros K ->. apply in_or_app. right. apply in_concat. eexists. split; [exact Iy|]. unfold with_K. apply in_map_iff. eauto. }
  destruct (mtyp m) as [[|]|] eqn:Em; [| |discriminate].
  - destruct (charged_scalar_K _ s l m) as [K|] eqn:EK; [|discriminate]. cbn [rbind] in Ey. exists K. split; [apply W; now injection Ey as <-|now left].
  - destruct (charged_vector_K _ s l m) as [K|] eqn:EK; [|discriminate]. cbn [rbind] in Ey. exists K. split; [apply W; now injection Ey as <-|now right].
Qed.
Print Assumptions C123_charged.
Theorem C123_neutral : forall thetas s ns leptons mesons out n m t,
  sterile_hadrons_interactions thetas s ns leptons mesons = Ok out -> In n ns -> In m mesons -> Q3 m = 0%Z -> thetas (flav n) <> 0 ->
  In t (sterile_neutral_meson s n m) ->
  exists K, In (t, K) out /\ ((mtyp m = Some Scalar /\ neutral_scalar_K (thetas (flav n)) s m = Ok K) \/ (mtyp m = Some Vector /\ neutral_vector_K (thetas (flav n)) s m = Ok K)).
Proof.
  intros thetas s ns leptons mesons out n m t E Il Im Hq Ht It. unfold sterile_hadrons_interactions in E. unres E. injection E as <-.
  destruct (traverse_hit _ _ _ _ _ (n, m) Hv) as (y & Ey & Iy); [now apply in_prod|]. cbn [fst snd] in Ey. rewrite nonzero_true in Ey by exact Ht.
  unfold hadrons_neutral in Ey. rewrite Hq in Ey. cbn [Z.eqb] in Ey.
  assert (W : forall K, y = with_K (sterile_neutral_meson s n m) K -> In (t, K) (concat v ++ concat v0)).
  { intros K ->. apply in_or_app. left. apply in_concat. eexists. split; [exact Iy|]. unfold with_K. apply in_map_iff. eauto. }
  destruct (mtyp m) as [[|]|] eqn:Em; [| |discriminate].
  - destruct (neutral_scalar_K _ s m) as [K|] eqn:EK; [|discriminate]. cbn [rbind] in Ey. exists K. split; [apply W; now injection Ey as <-|now left].
  - destruct (neutral_vector_K _ s m) as [K|] eqn:EK; [|discriminate]. cbn [rbind] in Ey. exists K. split; [apply W; now injection Ey as <-|now right].
Qed.
Print Assumptions C123_neutral.
(* all the constants are proportional to the square of the mixing angle *)
Theorem C123_quadratic : forall s l m a b Ka Kb,
  charged_vector_K a s l m = Ok Ka /\ charged_vector_K b s l m = Ok Kb \/ charged_scalar_K a s l m = Ok Ka /\ charged_scalar_K b s l m = Ok Kb \/
  neutral_vector_K a s m = Ok Ka /\ neutral_vector_K b s m = Ok Kb \/ neutral_scalar_K a s m = Ok Ka /\ neutral_scalar_K b s m = Ok Kb ->
  Ka * b ^ 2 = Kb * a ^ 2.
Proof.
  intros s l m a b Ka Kb H. unfold charged_vector_K, charged_scalar_K, neutral_vector_K, neutral_scalar_K in H. cbn [CKM rbind] in H.
  destruct (decay_constant m) as [f|]; cbn [rbind] in H; [|repeat (destruct H as [H|H]); destruct H; discriminate].
  destruct (pydiv (mass m) (mass s)) as [y|]; cbn [rbind] in H; [|destruct (pydiv (mass l) (mass s)), (kappa m); cbn [rbind] in H; repeat (destruct H as [H|H]); destruct H; discriminate].
  destruct H as [H|[H|[H|H]]]; destruct H as (H1 & H2).
  - destruct (pydiv (mass l) (mass s)); [|discriminate]. cbn [rbind] in *. apply Ok_inj in H1, H2. subst. ring.
  - destruct (pydiv (mass l) (mass s)); [|discriminate]. cbn [rbind] in *. apply Ok_inj in H1, H2. subst. ring.
  - destruct (kappa m); [|discriminate]. cbn [rbind] in *. apply Ok_inj in H1, H2. subst. ring.
  - apply Ok_inj in H1, H2. subst. ring.
Qed.
Print Assumptions C123_quadratic.
(* with mixing only to electrons the decays to a charged rho are switched off,
   although the constant computed with the electron's angle is positive *)
Definition electron_mixing (f : option flavour) : R := match f with Some Fe => / 100 | _ => 0 end.
Definition heavy_sterile : lib := dirac_sterile_neutrino 50 1000000000.
Theorem C123_flavour_refuted : exists out,
  sterile_hadrons_interactions electron_mixing heavy_sterile lib_neutrinos [electron] [charged_rho] = Ok out /\
  (forall t, In t (sterile_charged_meson heavy_sterile electron charged_rho) -> In (t, 0) out) /\
  exists K, charged_vector_K (electron_mixing (flav electron)) heavy_sterile electron charged_rho = Ok K /\ 0 < K.
Proof.
  assert (E : 0 < eV) by (pose proof MeV_pos; unfold MeV in *; lra).
  assert (N : mass heavy_sterile = 1000000000 * eV) by reflexivity.
  assert (P : forall th, exists K, charged_vector_K th heavy_sterile electron charged_rho = Ok K).
  { intros th. unfold charged_vector_K. cbn [CKM rbind]. change (decay_constant charged_rho) with (@Ok R (209 * MeV)). cbn [rbind]. unfold pydiv. destruct (Req_EM_T (mass heavy_sterile) 0) as [Z|Z]; [exfalso; rewrite N in Z; nra|]. cbn [rbind]. eauto. }
  destruct (P (/ 100)) as (K & HK). destruct (P 0) as (K0 & HK0).
  assert (Z0 : K0 = 0) by (pose proof (C123_quadratic _ _ _ _ _ _ _ (or_introl (conj HK HK0))); nra). subst K0.
  assert (E1 : sterile_hadrons_interactions electron_mixing heavy_sterile lib_neutrinos [electron] [charged_rho] = Ok (with_K (sterile_charged_meson heavy_sterile electron charged_rho) 0)).
  { unfold sterile_hadrons_interactions. unfold lib_neutrinos. cbn [list_prod map app traverse fst snd]. cbn [electron_mixing flav neutrino_e neutrino_mu neutrino_tau].
   change (electron_mixing (flav electron)) with (/ 100). rewrite (nonzero_true (/ 100)) by (intros Z; lra).
    unfold hadrons_charged. change (Q3 charged_rho =? -3)%Z with true. change (mtyp charged_rho) with (Some Vector). cbn [rev app].
    change (electron_mixing (flav neutrino_tau)) with 0. rewrite HK0. unfold hadrons_neutral. change (Q3 charged_rho =? 0)%Z with false. cbn [rbind].
    repeat match goal with |- context [nonzero ?x] => destruct (nonzero x) end; cbn [rbind concat app]; rewrite ?app_nil_r; reflexivity. }
  eexists. split; [exact E1|]. split; [intros t It; unfold with_K; apply in_map_iff; eauto|]. exists K. split; [exact HK|].
  unfold charged_vector_K in HK. cbn [CKM rbind] in HK. change (decay_constant charged_rho) with (@Ok R (209 * MeV)) in HK. cbn [rbind] in HK. unres HK. destruct (pydiv_ok _ _ _ Hv) as (_ & ->). destruct (pydiv_ok _ _ _ Hv0) as (_ & ->). apply Ok_inj in HK. subst K.
  set (c := G_Fermi * / 100 * (209 * MeV) * (974 / 1000)). pose proof G_pos. pose proof MeV_pos.
  assert (Hc : 0 < c ^ 2) by (apply sq_pos; unfold c; apply nz4; intros Z; lra). clearbody c.
  unfold mass. cbn [sp smass heavy_sterile electron charged_rho dirac_sterile_neutrino].
  repeat match goal with |- context [IZR ?a * eV / (IZR ?b * eV)] => replace (IZR a * eV / (IZR b * eV)) with (IZR a / IZR b) by (field; lra) end.
  apply Rmult_lt_0_compat; [apply Rmult_lt_0_compat; [lra|apply pow_lt; nra]|]. lra.
Qed.
Print Assumptions C123_flavour_refuted.
(* without neutrinos a charged vector meson cannot be included at all *)
Theorem C123_no_neutrinos : forall thetas s leptons mesons l m, In l leptons -> In m mesons -> Q3 m = (-3)%Z -> mtyp m = Some Vector -> thetas (flav l) <> 0 ->
  (forall out, sterile_hadrons_interactions thetas s [] leptons mesons <> Ok out) /\ sterile_hadrons_interactions thetas s [] [l] [m] = Raise UnboundLocalError.
Proof.
  intros thetas s leptons mesons l m Il Im Hq Hm Ht. split.
  - intros out E. unfold sterile_hadrons_interactions in E. unres E. destruct (traverse_hit _ _ _ _ _ (l, m) Hv0) as (y & Ey & _); [now apply in_prod|]. cbn [fst snd] in Ey.
    rewrite nonzero_true in Ey by exact Ht. unfold hadrons_charged in Ey. rewrite Hq, Hm in Ey. discriminate.
  - unfold sterile_hadrons_interactions. cbn [list_prod map app traverse rbind fst snd]. rewrite nonzero_true by exact Ht. unfold hadrons_charged. rewrite Hq, Hm. reflexivity.
Qed.
Print Assumptions C123_no_neutrinos.
(* vector mesons other than rho, omega and phi have no coupling *)
Theorem C123_unknown_vector : forall th s m f, decay_constant m = Ok f -> ~ In (lname m) ["Neutral rho"; "Omega"; "Phi"]%string -> neutral_vector_K th s m = Raise UnboundLocalError.
Proof.
  intros th s m f Hf HN. unfold neutral_vector_K. rewrite Hf. cbn [rbind]. unfold kappa.
  destruct (String.eqb_spec (lname m) "Neutral rho"); [exfalso; apply HN; rewrite e; left; reflexivity|].
  destruct (String.eqb_spec (lname m) "Omega"); [exfalso; apply HN; rewrite e; right; left; reflexivity|].
  destruct (String.eqb_spec (lname m) "Phi"); [exfalso; apply HN; rewrite e; right; right; left; reflexivity|]. reflexivity.
Qed.
Print Assumptions C123_unknown_vector.

(* ---------- C124 ---------- *)
(* annihilation of nu(p) and anti-nu(p') into l-(k) and l+(k'), of mass m *)
Definition annihilation (g : R) (p p' k k' : vec4) (m : R) : R :=
  32 * G_Fermi ^ 2 * (4 * g ^ 2 * (dot p k' * dot p' k) + 4 * g_R ^ 2 * (dot p k * dot p' k') + 4 * g * g_R * m ^ 2 * dot p p').
Definition momenta4 (a b c d : vec4) (i : nat) : vec4 := match i with 0 => a | 1 => b | 2 => c | _ => d end%nat.
(* the first particles of the two templates: nu, anti-nu, l-, l+ and N, anti-nu,
   l+, l- *)
Theorem C124_places : forall n l s,
  tparts (neutrinos_to_leptons n l) = ([n; n], [l; l]) /\ tflags (neutrinos_to_leptons n l) = ([false; true], [false; true]) /\
  tparts (fst (sterile_NC s n l)) = ([s; n], [l; l]) /\ tflags (fst (sterile_NC s n l)) = ([false; true], [true; false]).
Proof. repeat split. Qed.
Print Assumptions C124_places.
(* the sterile interaction is the one above times the squared angle *)
Theorem C124_sterile : forall th g p p' k k' m, total (sterile_NC_Ms th g) (momenta4 p p' k' k) (fun _ => m) = th ^ 2 * annihilation g p p' k k' m.
Proof.
  intros. unfold sterile_NC_Ms. rewrite total3. unfold sterileM, store_order. cbn [firstn skipn nsorted fold_right ninsert Nat.ltb Nat.leb app Msq momenta4]. unfold annihilation. ring.
Qed.
Print Assumptions C124_sterile.
(* the active one has the couplings of the two chiralities exchanged *)
Theorem C124_active : forall g p p' k k' m,
  total (annihilation_Ms g) (momenta4 p p' k k') (fun _ => m) = annihilation g p p' k' k m /\
  total (annihilation_Ms g) (momenta4 p p' k k') (fun _ => m) - annihilation g p p' k k' m = 32 * G_Fermi ^ 2 * 4 * (g ^ 2 - g_R ^ 2) * (dot p k * dot p' k' - dot p k' * dot p' k).
Proof.
  intros. unfold annihilation_Ms. rewrite total3. unfold weak, store_order. cbn [firstn skipn nsorted fold_right ninsert Nat.ltb Nat.leb app Msq momenta4]. unfold annihilation. split; ring.
Qed.
Print Assumptions C124_active.
Theorem C124_active_refuted : forall l n, exists p p' k k' m, 0 < m /\ dot p p = 0 /\ dot p' p' = 0 /\ dot k k = m ^ 2 /\ dot k' k' = m ^ 2 /\
  (forall q, dot p q + dot p' q = dot k q + dot k' q) /\ total (annihilation_Ms (g_L_of l n)) (momenta4 p p' k k') (fun _ => m) <> annihilation (g_L_of l n) p p' k k' m.
Proof.
  intros l n. exists (1, 0, 0, 1), (1, 0, 0, -1), (1, 0, 0, 3 / 5), (1, 0, 0, - (3 / 5)), (4 / 5).
  split; [lra|]. unfold dot. repeat (split; [lra|]). split; [intros [[[a b] c] d]; lra|]. fold (dot (1, 0, 0, 1)).
  intros E. pose proof (proj2 (C124_active (g_L_of l n) (1, 0, 0, 1) (1, 0, 0, -1) (1, 0, 0, 3 / 5) (1, 0, 0, - (3 / 5)) (4 / 5))) as D. rewrite E in D. pose proof weak_pos as W.
  unfold dot in D. assert (X : (g_L_of l n) ^ 2 - g_R ^ 2 <> 0) by (unfold g_L_of, g_R, sin_theta_w_2; destruct (flav_eqb _ _); intros Z; lra).
  set (x := g_L_of l n ^ 2 - g_R ^ 2) in *. clearbody x. set (w := 32 * G_Fermi ^ 2) in *. clearbody w.
  assert (D' : w * x = 0) by lra. apply Rmult_integral in D'. destruct D'; [lra|contradiction].
Qed.
Print Assumptions C124_active_refuted.
