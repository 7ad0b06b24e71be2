(* Exact forms of the cut-offs, skipped interactions, multipliers, decoupling
   temperature and resolutions (C91, C94, C97, C110-C114). Numbers are in GeV. *)
From Coq Require Import Reals Lra Psatz.
From Verif Require Import Base EvolveModel ParamsModel GridsModel ReactionsModel FunctionalModel KinemModel KinemProofs Kinem2Proofs KinemProps.
Open Scope R_scope.

(* ---------------- C94 ---------------- *)
Lemma MeV_value : MeV = / 1000.
Proof. unfold MeV, eV. assert (10 ^ 9 = 1000000000) by ring. rewrite H. lra. Qed.
(* relativistic decoupling: H(T) = 1.66 sqrt(g) T^2 / M_Planck equals the rate
   G_F^2 T^5 theta^2, with G_F = 1.166e-5 / GeV^2 and M_Planck = 1.2209e19 GeV *)
Theorem C94_relativistic : forall mass th T, th <> 0 -> T_rel mass th = Fin T ->
  0 < T /\ (166 / 100) * sqrt (g_star mass) * T ^ 2 / 12209000000000000000 = (1166 / 100000000) ^ 2 * T ^ 5 * th ^ 2.
Proof.
  intros mass th T Ht H. unfold T_rel in H. destruct (Req_EM_T th 0); [contradiction|]. assert (HH : forall a b, Fin a = Fin b -> a = b) by congruence. apply HH in H. subst T.
  assert (HM : M_p = 12209000000000000000) by (unfold M_p; rewrite MeV_value; assert (10 ^ 22 = 10000000000000000000000) by ring; lra).
  assert (HG : G_F = 1166 / 100000000) by (unfold G_F; rewrite MeV_value; assert (10 ^ 5 = 100000) by ring; assert ((1000 * / 1000) ^ 2 = 1) by field; rewrite H, H0; lra).
  rewrite HM, HG. set (d := 12209000000000000000 * (1166 / 100000000) ^ 2 * th ^ 2).
  assert (Hth : 0 < th ^ 2) by (replace (th ^ 2) with (Rsqr th) by (unfold Rsqr; ring); now apply Rsqr_pos_lt). assert (Hd : 0 < d) by (unfold d; nra).
  assert (Hg : 0 < g_star mass) by (destruct (g_star_values mass) as (A & B); unfold g_star; destruct (Rlt_dec muon_mass mass), (Rlt_dec mass lambda_QCD); cbn; lra).
  assert (Hs : 0 < sqrt (g_star mass)) by now apply sqrt_lt_R0. set (x := 166 / 100 * sqrt (g_star mass) / d).
  assert (Hx : 0 < x) by (unfold x; apply Rdiv_lt_0_compat; lra). split; [apply exp_pos|]. set (T := Rpower x (1 / 3)).
  assert (HT : T ^ 3 = x). { rewrite <- Rpower_pow by apply exp_pos. unfold T. rewrite Rpower_mult. replace (1 / 3 * INR 3) with 1 by (cbn; lra). now apply Rpower_1. }
  replace ((1166 / 100000000) ^ 2 * T ^ 5 * th ^ 2) with (d * T ^ 3 * T ^ 2 / 12209000000000000000) by (unfold d; field). rewrite HT. unfold x. field. lra.
Qed.
Print Assumptions C94_relativistic.
Theorem C94_scales : lambda_QCD = 15 / 100 /\ muon_mass = 105658 / 1000000.
Proof. unfold lambda_QCD, muon_mass. rewrite MeV_value. lra. Qed.
Print Assumptions C94_scales.
Example C94_exact_case : exists T, T_rel (12 / 100) (1 / 1000) = Fin T.
Proof. unfold T_rel. destruct (Req_EM_T _ 0); [lra|eauto]. Qed.

(* ---------------- C97, C91 ---------------- *)
(* number density on the grid: weights w, values v, g degrees of freedom *)
Fixpoint density_of (g : R) (w v y : list R) : R :=
  match w, v, y with a :: w, b :: v, c :: y => g * (c * c) * b * a + density_of g w v y | _, _, _ => 0 end.
Lemma number_density w p v : number w p v = density_of (if kmaj p then kdof p else kdof p / 2) w v (kgrid p).
Proof.
  unfold number, dof_eff. set (g := if kmaj p then kdof p else kdof p / 2). generalize (kgrid p). revert v. unfold quad, vmul.
  induction w as [|a w IH]; intros v y; [reflexivity|]. destruct v as [|b v]; [reflexivity|]. destruct y as [|c y]; [reflexivity|].
  cbn [combine map fold_right density_of fst snd]. rewrite IH. ring.
Qed.
Theorem C97_density : forall w i1 r fullstack constant v, let parent := ks (last (i1 :: r) i1) in
  scaling w (i1 :: r) fullstack constant = Ok (Some v) -> creation (i1 :: r) = true -> kfast parent = true ->
  exists b k, In (k, b) (kBR parent) /\ (forall c, count_char c (concat_symbols (removelast (i1 :: r))) = count_char c k) /\
    density_of (if kmaj (ks i1) then kdof (ks i1) else kdof (ks i1) / 2) w (vmul v constant) (kgrid (ks i1)) = b * knum parent.
Proof.
  intros w i1 r F C v parent HS HC HF. destruct (C97_number w i1 r F C v HS HC HF) as (b & HB & HN). destruct (C97_matching (concat_symbols (removelast (i1 :: r))) (kBR parent)) as (M & _).
  destruct (M b HB) as (k & HK & HE). exists b, k. split; [exact HK|]. split; [exact HE|]. now rewrite <- number_density.
Qed.
Print Assumptions C97_density.
Theorem C97_no_reaction : forall w fullstack constant, scaling w [] fullstack constant = Raise IndexError.
Proof. reflexivity. Qed.
Print Assumptions C97_no_reaction.
(* on a one-point grid the test is that of the number *)
Theorem C91_one_point : forall w r k fast dist fullstack constant x, scaling w r fullstack constant = Ok (Some [x]) ->
  tail_4p w r k fast dist fullstack constant = tail_3p w r k fast dist fullstack constant /\
  (x <> 0 -> tail_4p w r k fast dist fullstack constant = Ok (finish k fast dist [x] constant)) /\
  (x = 0 -> tail_4p w r k fast dist fullstack constant = Ok (return_function k fast (length fullstack))).
Proof.
  intros w r k fast dist F C x HS. unfold tail_4p, tail_3p. rewrite HS. cbn [rbind truth]. destruct (Req_EM_T x 0); repeat split; intros; try contradiction; reflexivity.
Qed.
Print Assumptions C91_one_point.
(* the zero result has the shape of the integral's kind *)
Theorem C91_zero_shape : forall k fast n, let z := repeat 0 n in
  (k = Full \/ k = Full_vacuum \/ fast = true -> return_function k fast n = Pair z z) /\
  (k <> Full -> k <> Full_vacuum -> fast = false -> return_function k fast n = Vec z).
Proof. intros k fast n. split; [intros [-> |[-> | ->]]; [reflexivity|reflexivity|]|intros H1 H2 ->]; destruct k; try reflexivity; contradiction. Qed.
Print Assumptions C91_zero_shape.
(* fast-decaying particles: gain and loss terms are returned apart *)
Theorem C91_fast : forall k dist v constant, let z := repeat 0 (length v) in
  finish k true dist v constant =
    match k with Decay | Ff_vacuum => Pair z (vmul v constant) | Creation | F1_vacuum => Pair (vmul v constant) z | Ff => Vec (vmul (vmul v constant) dist) | _ => Vec (vmul v constant) end.
Proof. intros k dist v constant. destruct k; reflexivity. Qed.
Print Assumptions C91_fast.

(* ---------------- C110 ---------------- *)
(* forbidden decay: no upper bound, and zero as the lower one of a massive particle *)
Theorem C110_forbidden : forall m1 m2 m3 pmax, 0 < m3 -> 0 <= m1 -> 0 <= m2 -> Rabs (m2 - m1) < m3 -> m3 < m1 + m2 ->
  bounds_3p false m1 m2 m3 pmax = (Fin 0, NaN) /\ bounds_3p true m1 m2 m3 pmax = (NaN, NaN).
Proof.
  intros m1 m2 m3 pm H3 H1 H2 HA HB. assert (E : cm_momentum m3 m2 m1 = NaN) by (apply C93_forbidden; auto; lra). unfold bounds_3p. rewrite E. split; [|reflexivity].
  f_equal. unfold nsqrt. destruct (Rlt_dec _ 0); [lra|]. replace (m1 ^ 2 - m1 ^ 2) with 0 by ring. now rewrite sqrt_0.
Qed.
Print Assumptions C110_forbidden.
Example C110_forbidden_case : Rabs (1 - 2) < 2 /\ 2 < 1 + 2.
Proof. split; [|lra]. unfold Rabs. destruct (Rcase_abs _); lra. Qed.

(* ---------------- C111 ---------------- *)
(* upper end of the grid kept in scatterings and decays *)
Lemma pymax_value E c m : (c ^ 2 <= E ^ 2 -> pymax (nsqrt (E ^ 2 - c ^ 2)) m = Fin (Rmax (sqrt (E ^ 2 - c ^ 2)) m)) /\ (E ^ 2 < c ^ 2 -> pymax (nsqrt (E ^ 2 - c ^ 2)) m = NaN).
Proof.
  unfold nsqrt. split; intros H; destruct (Rlt_dec (E ^ 2 - c ^ 2) 0); try lra.
  - unfold pymax, xgt. unfold Rmax. destruct (Rlt_dec _ _), (Rle_dec _ _); try reflexivity; try lra. f_equal. lra.
  - reflexivity.
Qed.
Theorem C111_kept : forall i1 i2 i3 i4 t hnl mx, let r := i1 :: i2 :: i3 :: i4 :: t in let p := ks i1 in
  ksum r = 0%Z \/ ksum r = 1%Z \/ ksum r = 2%Z ->
  exists ub, cutoff_4p r hnl mx = Ok (slices_4p (kgrid p) ub) /\
  ub = if string_dec (kname p) "Sterile neutrino (Dirac)" then Fin (kmax p)
       else match hnl with
            | Some E => if Rle_dec (kconf p ^ 2) (E ^ 2) then Fin (Rmax (sqrt (E ^ 2 - kconf p ^ 2)) (mx / 1000)) else NaN
            | None => if Z.eq_dec (ksum r) 0 then Fin (mx / 1000) else Fin (kmax p)
            end.
Proof.
  intros i1 i2 i3 i4 t hnl mx r p HS.
  assert (EM : mx * MeV = mx / 1000) by (rewrite MeV_value; reflexivity).
  assert (C0 : creation r = false) by (unfold creation; cbn [existsb]; destruct HS as [->|[->| ->]]; reflexivity).
  unfold cutoff_4p. change r with (i1 :: i2 :: i3 :: i4 :: t) at 1. cbv beta iota. rewrite C0.
  assert (S0 : scattering r = true /\ ksum r = 0%Z \/ scattering r = false /\ decay r = true /\ ksum r <> 0%Z) by (unfold scattering, decay; cbn [existsb]; destruct HS as [->|[->| ->]]; [left|right|right]; repeat split; discriminate).
  fold p. destruct S0 as [(-> & EZ)|(-> & -> & EZ)]; eexists; (split; [reflexivity|]); unfold maxmom_scattering, maxmom_decay, sterile; rewrite !EM;
    (destruct (String.eqb_spec (kname p) "Sterile neutrino (Dirac)") as [e|n], (string_dec (kname p) "Sterile neutrino (Dirac)") as [e'|n']; try contradiction; [reflexivity|]);
    (destruct hnl as [E|]; [destruct (pymax_value E (kconf p) (mx / 1000)); destruct (Rle_dec _ _); [auto|apply H0; lra]|]); destruct (Z.eq_dec (ksum r) 0); try contradiction; reflexivity.
Qed.
Print Assumptions C111_kept.
Theorem C111_creation : forall i1 i2 i3 i4 t hnl mx, let r := i1 :: i2 :: i3 :: i4 :: t in ksum r = (-1)%Z \/ ksum r = (-2)%Z ->
  cutoff_4p r hnl mx = Ok (slices_4p (kgrid (ks i1)) (bound_4p (kconf (ks i1)) (kconf (ks i2)) (kconf (ks i3)) (kconf (ks i4)) (kmax (ks i4)) mx)).
Proof.
  intros i1 i2 i3 i4 t hnl mx r HS. unfold cutoff_4p. change r with (i1 :: i2 :: i3 :: i4 :: t) at 1. cbv beta iota.
  assert (C0 : creation r = true) by (unfold creation; cbn [existsb]; destruct HS as [->| ->]; reflexivity). rewrite C0. reflexivity.
Qed.
Print Assumptions C111_creation.
Theorem C111_short : forall r hnl mx, (length r < 4)%nat -> cutoff_4p r hnl mx = Raise IndexError.
Proof. intros r hnl mx H. destruct r as [|a [|b [|c [|d r]]]]; try reflexivity. cbn in H. lia. Qed.
Print Assumptions C111_short.

(* ---------------- C113 ---------------- *)
Theorem C113_short : forall r, ((length r < 4)%nat -> multiplier_4p r = Raise IndexError) /\ ((length r < 3)%nat -> multiplier_3p r = Raise IndexError).
Proof. intros r. split; intros H; destruct r as [|a [|b [|c [|d r]]]]; try reflexivity; cbn in H; lia. Qed.
Print Assumptions C113_short.

(* ---------------- C114 ---------------- *)
Definition thin (a : R) (s : kspecie) : Prop := 0 < kdensity0 s /\ kdensity s < (a / 10) ^ 3 / 10000000000 * kdensity0 s.
Lemma thin_iff a s : 0 <= kdensity0 s -> 0 <= kdensity s -> (diluted (/ 10 ^ 10 * (a / 10) ^ 3) s = true <-> thin a s).
Proof.
  intros H0 H. unfold thin. assert (E : / 10 ^ 10 * (a / 10) ^ 3 = (a / 10) ^ 3 / 10000000000) by (assert (T : 10 ^ 10 = 10000000000) by ring; rewrite T; field). rewrite E.
  destruct H0 as [H0|H0]; [rewrite (diluted_iff _ _ H0); tauto|]. symmetry in H0. rewrite (not_diluted_zero _ _ H0 H). split; [discriminate|lra].
Qed.
Lemma sterile_in r : has_sterile r = true <-> exists i, In i r /\ kname (ks i) = "Sterile neutrino (Dirac)"%string.
Proof. exact (has_sterile_iff r). Qed.
Theorem C114_scattering : forall rel T m a i1 i2 i3 i4 t, let r := i1 :: i2 :: i3 :: i4 :: t in
  (forall i, In i r -> 0 <= kdensity0 (ks i) /\ 0 <= kdensity (ks i)) -> ksum r = 0%Z ->
  exists b, neglect_4p rel T m a r = Ok b /\
  (b = true <-> ((thin a (ks i1) \/ thin a (ks i2)) /\ (thin a (ks i3) \/ thin a (ks i4))) \/
     ((exists i, In i r /\ kname (ks i) = "Sterile neutrino (Dirac)"%string) /\ (T < 1 / 1000 \/ rel = true /\ T < m / a / 15))).
Proof.
  intros rel T m a i1 i2 i3 i4 t r HD HS.
  assert (C0 : creation r = false /\ decay r = false /\ scattering r = true) by (unfold creation, decay, scattering; cbn [existsb]; rewrite HS; auto). destruct C0 as (C0 & D0 & S0).
  assert (N1 := thin_iff a (ks i1) (proj1 (HD i1 (or_introl eq_refl))) (proj2 (HD i1 (or_introl eq_refl)))).
  assert (N2 := thin_iff a (ks i2) (proj1 (HD i2 ltac:(cbn; auto))) (proj2 (HD i2 ltac:(cbn; auto)))).
  assert (N3 := thin_iff a (ks i3) (proj1 (HD i3 ltac:(cbn; auto))) (proj2 (HD i3 ltac:(cbn; auto)))).
  assert (N4 := thin_iff a (ks i4) (proj1 (HD i4 ltac:(cbn; auto))) (proj2 (HD i4 ltac:(cbn; auto)))).
  setoid_rewrite <- (sterile_in r). setoid_rewrite <- N1. setoid_rewrite <- N2. setoid_rewrite <- N3. setoid_rewrite <- N4. unfold neglect_4p. change r with (i1 :: i2 :: i3 :: i4 :: t) at 1. cbv beta iota zeta. rewrite C0, D0, S0.
  assert (EM : MeV = 1 / 1000) by (rewrite MeV_value; lra). rewrite EM. cbn [andb orb].
  set (q1 := diluted _ (ks i1)). set (q2 := diluted _ (ks i2)). set (q3 := diluted _ (ks i3)). set (q4 := diluted _ (ks i4)). set (st := has_sterile r). clearbody q1 q2 q3 q4 st.
  destruct ((q1 || q2) && (q3 || q4)) eqn:EQ.
  - exists true. split; [reflexivity|]. split; [intros _; left|reflexivity]. apply andb_prop in EQ. destruct EQ as (A & B). apply orb_prop in A, B. auto.
  - assert (NQ : ~ ((q1 = true \/ q2 = true) /\ (q3 = true \/ q4 = true))) by (intros (A & B); destruct q1, q2, q3, q4; cbn in EQ; try discriminate; destruct A, B; discriminate).
    destruct st; cbn [andb]; [|exists false; split; [reflexivity|]; split; [discriminate|intros [X|(X & _)]; [tauto|discriminate]]].
    destruct (Rlt_dec T (1 / 1000)) as [L|L], rel, (Rlt_dec T (m / a / 15)) as [L'|L']; cbn [andb orb]; eexists; (split; [reflexivity|]); split; auto; try discriminate; intros [X|(_ & [X|(X & Y)])]; try contradiction; try discriminate; lra.
Qed.
Print Assumptions C114_scattering.
Theorem C114_three_exact : forall k fast i1 i2 t, let r := i1 :: i2 :: t in let parent := ks (last r i1) in
  exists b, neglect_3p k fast r = Ok b /\
  (b = true <-> (kmass (ks i1) = 0 /\ kside i2 = 1%Z) \/
     ((k = Full \/ k = Full_vacuum \/ fast = true) /\
      (((ksum r = -1 \/ ksum r = -2)%Z /\ (kdecayed parent = true \/ (kfast parent = true /\ knum parent = 0))) \/
       ((ksum r = 1 \/ ksum r = 2)%Z /\ kfast (ks i1) = true /\ knum (ks i1) = 0)))).
Proof.
  intros k fast i1 i2 t r parent.
  assert (HC : creation r = true <-> (ksum r = -1 \/ ksum r = -2)%Z) by (unfold creation; cbn [existsb]; destruct (Z.eqb_spec (ksum r) (-1)), (Z.eqb_spec (ksum r) (-2)); cbn; intuition (try discriminate; lia)).
  assert (HD : decay r = true <-> (ksum r = 1 \/ ksum r = 2)%Z) by (unfold decay; cbn [existsb]; destruct (Z.eqb_spec (ksum r) 1), (Z.eqb_spec (ksum r) 2); cbn; intuition (try discriminate; lia)).
  assert (HF : is_full k || fast = true <-> (k = Full \/ k = Full_vacuum \/ fast = true)) by (destruct k, fast; cbn; intuition discriminate).
  setoid_rewrite <- HF. setoid_rewrite <- HC. setoid_rewrite <- HD. unfold neglect_3p. change r with (i1 :: i2 :: t) at 1. cbv beta iota zeta. fold parent.
  set (c := creation r) in *. set (d := decay r) in *. set (f := is_full k || fast) in *. clearbody c d f. clear HC HD HF.
  assert (IF : forall x : R, (if Req_EM_T x 0 then true else false) = true <-> x = 0) by (intros x; destruct (Req_EM_T x 0); intuition discriminate).
  setoid_rewrite <- (IF (kmass (ks i1))). setoid_rewrite <- (IF (knum parent)). setoid_rewrite <- (IF (knum (ks i1))). setoid_rewrite <- (Z.eqb_eq (kside i2) 1).
  set (m0 := if Req_EM_T (kmass (ks i1)) 0 then true else false). set (n1 := if Req_EM_T (knum parent) 0 then true else false). set (n2 := if Req_EM_T (knum (ks i1)) 0 then true else false).
  set (s1 := Z.eqb (kside i2) 1). set (de := kdecayed parent). set (f1 := kfast parent). set (f2 := kfast (ks i1)). clearbody m0 n1 n2 s1 de f1 f2.
  exists (m0 && s1 || f && (c && (de || f1 && n1) || d && f2 && n2)). split; [|repeat first [rewrite orb_true_iff | rewrite andb_true_iff]; tauto].
  destruct m0, s1, f, c, de, f1, n1, d, f2, n2; reflexivity.
Qed.
Print Assumptions C114_three_exact.
Theorem C114_never_fails : forall rel T m a k fast r,
  ((4 <= length r)%nat -> exists b, neglect_4p rel T m a r = Ok b) /\ ((length r < 4)%nat -> neglect_4p rel T m a r = Raise IndexError) /\
  ((2 <= length r)%nat -> exists b, neglect_3p k fast r = Ok b) /\ ((length r < 2)%nat -> neglect_3p k fast r = Raise IndexError).
Proof.
  intros rel T m a k fast r. split; [|split; [|split]]; intros H.
  - destruct r as [|x [|y [|z [|u r]]]]; try (cbn in H; lia). unfold neglect_4p. repeat match goal with |- context [if ?b then Ok true else _] => destruct b; [eauto|] end. eauto.
  - destruct r as [|x [|y [|z [|u r]]]]; try reflexivity. cbn in H. lia.
  - destruct r as [|x [|y r]]; try (cbn in H; lia). destruct (C114_three_exact k fast x y r) as (b & E & _). eauto.
  - destruct r as [|x [|y r]]; try reflexivity. cbn in H. lia.
Qed.
Print Assumptions C114_never_fails.
Example C114_exact_case : ksum [mkKI (-1) nu; mkKI (-1) (plain 1); mkKI 1 (plain 2); mkKI 1 nu] = 0%Z /\ 0 <= kdensity0 nu /\ 0 <= kdensity nu.
Proof. split; [reflexivity|]. cbn. lra. Qed.

(* ---------------- C112 ---------------- *)
(* the mesons a sterile neutrino can decay into, with a neutrino or with any
   lepton: pi0 pi+ (K+ K0) eta rho omega eta' phi *)
Definition with_neutrino : list R := [13498 / 100000; 13957 / 100000; 54786 / 100000; 77511 / 100000; 78265 / 100000; 95778 / 100000; 101946 / 100000].
Definition with_lepton : list R := [13498 / 100000; 13957 / 100000; 493677 / 1000000; 497611 / 1000000; 54786 / 100000; 77511 / 100000; 78265 / 100000; 95778 / 100000; 101946 / 100000].
Definition heaviest_below (table : list R) (mass M : R) : Prop := In M table /\ M < mass /\ forall x, In x table -> x < mass -> x <= M.
Lemma tables : mesons_nu = with_neutrino /\ mesons = with_lepton.
Proof. unfold mesons_nu, mesons, with_neutrino, with_lepton. rewrite MeV_value. cbn [map]. split; repeat (apply f_equal2; [lra|]); reflexivity. Qed.
Definition spread : R := sqrt (3 - 8 / PI) / 1000.
Lemma cm0_value mass M : 0 < M < mass -> cm0 mass M = (mass ^ 2 - M ^ 2) / (2 * mass).
Proof. intros H. unfold cm0. rewrite Rabs_pos_eq by nra. reflexivity. Qed.
Lemma table_pos M : In M with_neutrino \/ In M with_lepton -> 0 < M.
Proof. intros H. cbn in H. intuition lra. Qed.
Theorem C112_neutrino_resolution : forall res mass,
  (mass < 13498 / 100000 -> 105658 / 1000000 < mass < 115658 / 1000000 -> res_neutrino res mass = res / 2000) /\
  (mass < 13498 / 100000 -> ~ 105658 / 1000000 < mass < 115658 / 1000000 -> res_neutrino res mass = res / 1000) /\
  (13498 / 100000 < mass -> exists M, heaviest_below with_neutrino mass M /\ res_neutrino res mass = Rmin (3 / 4 * (1 - (M / mass) ^ 2) * spread) (res / 3000)).
Proof.
  intros res mass. destruct C94_scales as (_ & EM). unfold res_neutrino. rewrite EM, MeV_value. split; [|split]; intros H1.
  - intros H2. destruct (Rlt_dec mass _); [|lra]. destruct (Rlt_dec _ mass); [|lra]. destruct (Rlt_dec (mass - _) _); [|lra]. cbn [andb]. field.
  - intros H2. destruct (Rlt_dec mass _); [|lra]. destruct (Rlt_dec _ mass); [|cbn [andb]; field]. destruct (Rlt_dec (mass - _) _); [exfalso; apply H2; lra|]. cbn [andb]. field.
  - destruct (C112_heaviest_lighter mass) as (HH & _); [rewrite MeV_value; lra|]. destruct tables as (TN & _). rewrite TN in *. exists (chosen_meson with_neutrino mass). split; [exact HH|].
    destruct (Rlt_dec mass _); [lra|]. destruct HH as (HI & HL & _). assert (HP := table_pos _ (or_introl HI)). rewrite cm0_value by lra. unfold res_HNL, spread. rewrite MeV_value. f_equal; field. lra.
Qed.
Print Assumptions C112_neutrino_resolution.
(* p, E: momentum and energy of the meson in the decay at rest, d: their spread *)
Theorem C112_meson_resolution : forall res mass, 0 < res ->
  (mass < 13498 / 100000 -> res_meson res mass = res / 1000) /\
  (13498 / 100000 < mass -> exists M, heaviest_below with_lepton mass M /\
     let p := (mass ^ 2 - M ^ 2) / (2 * mass) in let E := (mass ^ 2 + M ^ 2) / (2 * mass) in let d := spread * p / mass in
     (M ^ 2 <= (E - d) ^ 2 -> 0 <= E - d -> res_meson res mass = Rmin ((sqrt ((E + d) ^ 2 - M ^ 2) - sqrt ((E - d) ^ 2 - M ^ 2)) / 3) (res / 1000)) /\
     ((E - d) ^ 2 < M ^ 2 -> res_meson res mass = res / 9000)).
Proof.
  intros res mass Hr. unfold res_meson. rewrite MeV_value. split; intros H1.
  - destruct (Rlt_dec mass _); [|lra]. field.
  - destruct (C112_heaviest_lighter mass) as (_ & HH); [rewrite MeV_value; lra|]. destruct tables as (_ & TN). rewrite TN in *. exists (chosen_meson with_lepton mass). split; [exact HH|].
    destruct (Rlt_dec mass _); [lra|]. destruct HH as (HI & HL & _). assert (HP := table_pos _ (or_intror HI)). set (M := chosen_meson with_lepton mass) in *. clearbody M. rewrite cm0_value by lra.
    cbv zeta. set (p := (mass ^ 2 - M ^ 2) / (2 * mass)).
    assert (HE : sqrt (p ^ 2 + M ^ 2) = (mass ^ 2 + M ^ 2) / (2 * mass)).
    { replace (p ^ 2 + M ^ 2) with (((mass ^ 2 + M ^ 2) / (2 * mass)) ^ 2) by (unfold p; field; lra). apply sqrt_sq. apply Rlt_le, Rdiv_lt_0_compat; nra. }
    rewrite HE. set (E := (mass ^ 2 + M ^ 2) / (2 * mass)). assert (ES : res_HNL = spread) by (unfold res_HNL, spread; rewrite MeV_value; reflexivity). rewrite ES. set (d := spread * p / mass).
    assert (Hp : 0 < p) by (unfold p; apply Rdiv_lt_0_compat; nra). assert (HE0 : 0 < E) by (unfold E; apply Rdiv_lt_0_compat; nra).
    assert (Hs : 0 < spread). { unfold spread. apply Rdiv_lt_0_compat; [|lra]. apply sqrt_lt_R0. pose proof PI_RGT_0. pose proof PI2_3_2. assert (8 / PI < 3); [|lra]. apply (Rmult_lt_reg_r PI); [assumption|]. unfold Rdiv. rewrite Rmult_assoc, Rinv_l by lra. lra. }
    assert (Hd : 0 < d) by (unfold d; apply Rdiv_lt_0_compat; nra). clearbody p E d.
    split; [intros H2 H3|intros H2]; unfold nsqrt.
    + destruct (Rlt_dec ((E + d) ^ 2 - M ^ 2) 0); [exfalso; nra|]. destruct (Rlt_dec ((E - d) ^ 2 - M ^ 2) 0); [lra|].
      assert (sqrt ((E - d) ^ 2 - M ^ 2) < sqrt ((E + d) ^ 2 - M ^ 2)) by (apply sqrt_lt_1; nra). destruct (Rlt_dec 0 _); [|lra]. f_equal.
    + destruct (Rlt_dec ((E - d) ^ 2 - M ^ 2) 0); [|lra].
      assert (X : Rmin (res * / 1000 / 3 / 3) (res * / 1000) = res / 9000) by (rewrite Rmin_left by lra; field). destruct (Rlt_dec ((E + d) ^ 2 - M ^ 2) 0); exact X.
Qed.
Print Assumptions C112_meson_resolution.
Example C112_exact_case : heaviest_below with_lepton (1 / 2) (497611 / 1000000).
Proof. split; [cbn; tauto|]. split; [lra|]. intros x H. cbn in H. intuition lra. Qed.
