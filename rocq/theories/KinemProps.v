(* Kinematics: grid cut-offs, momentum bounds, decoupling temperature, fast
   decays, multipliers, resolutions (C90-C94, C97, C110-C115). *)
From Coq Require Import Reals Lra Psatz.
From Verif Require Import Base EvolveModel ParamsModel ParamsProofs GridsModel GridsProofs ReactionsModel FunctionalModel KinemModel KinemProofs Kinem2Proofs.
Open Scope R_scope.

(* ---------------- C90 ---------------- *)
(* computed part and padding make up the grid, whatever the bound *)
Theorem C90_four_particle_partition : forall g ub s pad, slices_4p g ub = (s, pad) ->
  (length s + pad = length g)%nat /\ exists rest, g = s ++ rest.
Proof.
  intros g ub s pad H. pose proof (slices_4p_split g ub) as HS. rewrite H in HS. destruct HS as (rest & HG & HL & _).
  split; [rewrite HG, app_length, HL; reflexivity|now exists rest].
Qed.
Print Assumptions C90_four_particle_partition.
(* every grid point not above the bound is computed, and at most one point that
   is above it *)
Theorem C90_four_particle_covers : forall g ub s pad, incr g -> slices_4p g ub = (s, pad) ->
  (forall k, (k < length g)%nat -> below_bound (rnth g k) ub -> (k < length s)%nat) /\
  (forall r k, ub = Fin r -> (k + 1 < length s)%nat -> rnth g k < r).
Proof.
  intros g ub s pad Hg H. split.
  - intros k Hk HB. pose proof (slices_4p_cover g ub k Hg Hk HB) as HC. now rewrite H in HC.
  - intros r k -> HK. apply ssl_below. injection H as <- <-. rewrite firstn_length in HK. cbn [ssl] in HK. lia.
Qed.
Print Assumptions C90_four_particle_covers.
Theorem C90_three_particle_partition : forall g lo hi a b c, cutoff_3p g lo hi = Some (a, b, c) ->
  (a + length b + c = length g)%nat /\ (exists pre post, g = pre ++ b ++ post /\ length pre = a /\ length post = c).
Proof. exact cutoff_3p_shape. Qed.
Print Assumptions C90_three_particle_partition.
Theorem C90_three_particle_covers : forall g lo hi a b c k, incr g -> cutoff_3p g lo hi = Some (a, b, c) ->
  ((k < length g)%nat -> above_bound (rnth g k) lo -> below_bound (rnth g k) hi -> (a <= k < a + length b)%nat) /\
  ((a < k)%nat -> (k + 1 < a + length b)%nat -> gt_lo (rnth g k) lo /\ lt_hi (rnth g k) hi).
Proof. intros. split; intros; [eapply cutoff_3p_in; eauto|eapply cutoff_3p_only; eauto]. Qed.
Print Assumptions C90_three_particle_covers.
(* the integral is skipped only if no grid point lies strictly inside *)
Theorem C90_three_particle_skip : forall g lo hi, incr g -> (2 <= length g)%nat -> 0 <= rnth g 0 ->
  cutoff_3p g lo hi = None -> forall k, (k < length g)%nat -> ~ (gt_lo (rnth g k) lo /\ lt_hi (rnth g k) hi).
Proof. intros g lo hi Hg HL H0 HN k Hk [A B]. exact (cutoff_3p_reached g lo hi k Hg HL H0 Hk A B HN). Qed.
Print Assumptions C90_three_particle_skip.
Theorem C90_reaction_types : forall r hnl mx, (4 <= length r)%nat ->
  ((exists v, cutoff_4p r hnl mx = Ok v) <-> (-2 <= ksum r <= 2)%Z) /\
  (cutoff_4p r hnl mx = Raise UnboundLocalError <-> (ksum r < -2 \/ 2 < ksum r)%Z).
Proof. exact cutoff_4p_type. Qed.
Print Assumptions C90_reaction_types.
Example C90_case : slices_4p [0; 1; 2; 3] (Fin 1) = ([0; 1], 2%nat) /\ slices_4p [0; 1; 2; 3] NaN = ([0; 1; 2; 3], 0%nat) /\
  cutoff_3p [0; 1; 2; 3] (Fin 1) (Fin (3 / 2)) = Some (1%nat, [1; 2], 1%nat) /\ cutoff_3p [0; 1; 2; 3] (Fin 3) (Fin 4) = None.
Proof.
  unfold slices_4p, cutoff_3p, slices_3p, ssl, ssr, searchsorted_left, searchsorted_right. cbn [filter length].
  repeat match goal with |- context [Rlt_dec ?a ?b] => destruct (Rlt_dec a b); try lra end;
  repeat match goal with |- context [Rle_dec ?a ?b] => destruct (Rle_dec a b); try lra end; cbn;
  repeat match goal with |- context [Req_EM_T ?a ?b] => destruct (Req_EM_T a b); try lra end; auto.
Qed.

(* ---------------- C91 ---------------- *)
(* vectors with more than one element: the test `not scaled_output` raises *)
Theorem C91_refuted : forall w r k fast dist fullstack constant v,
  scaling w r fullstack constant = Ok (Some v) -> (2 <= length fullstack)%nat -> r <> [] ->
  tail_4p w r k fast dist fullstack constant = Raise ValueError.
Proof.
  intros w r k fast dist F C v HS HL HR. destruct r as [|i r]; [contradiction|].
  apply (tail_4p_raises w (i :: r) k fast dist F C v HS). now rewrite (scaling_length w i r F C v HS).
Qed.
Print Assumptions C91_refuted.
(* the same point of the 3-particle integral catches the exception; without it
   the value is the vector times the constant (times f for the kinds F_f, F_decay) *)
Theorem C91_three_particle : forall w r k fast dist fullstack constant v,
  scaling w r fullstack constant = Ok (Some v) -> (2 <= length fullstack)%nat -> r <> [] ->
  tail_3p w r k fast dist fullstack constant = Ok (finish k fast dist v constant) /\
  (fast = false -> match k with Ff | Decay | Ff_vacuum => finish k fast dist v constant = Vec (vmul (vmul v constant) dist)
                              | _ => finish k fast dist v constant = Vec (vmul v constant) end).
Proof.
  intros w r k fast dist F C v HS HL HR. destruct r as [|i r]; [contradiction|]. split.
  - apply (tail_3p_works w (i :: r) k fast dist F C v HS). now rewrite (scaling_length w i r F C v HS).
  - intros ->. now destruct k.
Qed.
Print Assumptions C91_three_particle.
(* a concrete scattering on a two-point grid: the hypotheses hold *)
Definition plain (id : nat) : kspecie := mkK id "e" 0 0 [0; 1] 1 false None false false 0 [] "e" 2 1 1.
Example C91_case : scaling [1; 1] [mkKI (-1) (plain 0); mkKI (-1) (plain 1); mkKI 1 (plain 2); mkKI 1 (plain 3)] [3; 4] [1; 1] = Ok (Some [3; 4]).
Proof. reflexivity. Qed.

(* ---------------- C92 ---------------- *)
Theorem C92_refuted : forall w p h backg i ints, Icoll_fast_decay w false p h backg (i :: ints) = Raise AttributeError.
Proof. exact Icoll_raises. Qed.
Print Assumptions C92_refuted.
(* What the function would compute if the integral itself were classified: the
   number balance of a fast-decaying particle. With branching ratios b_i and
   non-vanishing decay integrals, the net number change is (1 - sum b_i) times
   the created number: zero when the ratios sum to one. *)
Theorem C92_number_balance : forall w p h backg ints bs n,
  n = length (kgrid p) -> length backg = n -> (forall i, In i ints -> length (snd (fst i)) = n /\ length (snd i) = n) ->
  let F1tot := vsum n (map (fun i => snd (fst i)) ints) in
  let distr := vsum n [backg; vscale h F1tot] in
  Forall2 (fun i b => decay (fst (fst i)) = true /\ BR_of (fst (fst i)) = Some b /\ number w p (vmul distr (snd i)) <> 0) ints bs ->
  exists v, Icoll_fast_decay w true p h backg ints = Ok (v, number w p F1tot) /\ length v = n /\
    number w p v = (1 - fold_right Rplus 0 bs) * number w p F1tot.
Proof. exact Icoll_balance. Qed.
Print Assumptions C92_number_balance.
Definition pion : kspecie := mkK 7 "Neutral pion" 1 1 [0; 1] 1 true (Some 0) false true 5 [("gg"%string, 1)] "p" 1 1 1.
Definition photon : kspecie := mkK 8 "Photon" 0 0 [0; 1] 1 true None false false 0 [] "g" 2 1 1.
Definition pigg : list kitem := [mkKI (-1) pion; mkKI 1 photon; mkKI 1 photon].
Example C92_case : decay pigg = true /\ BR_of pigg = Some 1 /\
  number [1; 1] pion (vmul (vsum 2 [[0; 0]; vscale 1 (vsum 2 [[0; 3]])]) [0; -2]) <> 0.
Proof.
  split; [reflexivity|]. split; [reflexivity|].
  unfold number, quad, dof_eff, vmul, vsum, vscale, zeros. cbn [combine map fold_right fst snd repeat kgrid kmaj kdof pion]. lra.
Qed.

(* ---------------- C93 ---------------- *)
Theorem C93_energy : forall m1 m2 m3, 0 < m1 -> 0 <= m2 -> 0 <= m3 -> m2 + m3 <= m1 ->
  exists p, cm_momentum m1 m2 m3 = Fin p /\ 0 <= p /\ sqrt (p ^ 2 + m2 ^ 2) + sqrt (p ^ 2 + m3 ^ 2) = m1.
Proof.
  intros m1 m2 m3 H1 H2 H3 H. exists (sqrt (lam m1 m2 m3) / (2 * m1)). split; [apply cm_Fin; [lra|now apply lam_nonneg]|]. now apply cm_conserves.
Qed.
Print Assumptions C93_energy.
Theorem C93_symmetric : forall m1 m2 m3, cm_momentum m1 m2 m3 = cm_momentum m1 m3 m2.
Proof. intros. unfold cm_momentum. fold (lam m1 m2 m3). fold (lam m1 m3 m2). now rewrite lam_sym. Qed.
Print Assumptions C93_symmetric.
Theorem C93_massless : forall m1 m3, 0 < m1 -> 0 <= m3 <= m1 -> cm_momentum m1 0 m3 = Fin ((m1 ^ 2 - m3 ^ 2) / (2 * m1)).
Proof. intros m1 m3 H1 H3. rewrite cm0_is_cm by lra. unfold cm0. rewrite Rabs_right; [reflexivity|nra]. Qed.
Print Assumptions C93_massless.
(* kinematically forbidden decays give NaN *)
Theorem C93_forbidden : forall m1 m2 m3, 0 < m1 -> 0 <= m2 -> 0 <= m3 -> Rabs (m2 - m3) < m1 -> m1 < m2 + m3 -> cm_momentum m1 m2 m3 = NaN.
Proof. intros. apply cm_NaN. now apply lam_neg. Qed.
Print Assumptions C93_forbidden.
Example C93_case : exists p, cm_momentum 5 0 3 = Fin p /\ p = 8 / 5.
Proof. eexists. split; [apply C93_massless; lra|]. field. Qed.

(* ---------------- C94 ---------------- *)
(* Above the QCD scale the degrees of freedom are not 61.75: the value is
   overwritten. *)
Theorem C94_refuted : forall m, lambda_QCD < m -> g_star m = 1075 / 100 /\ g_star m <> 6175 / 100.
Proof.
  intros m H. assert (E : g_star m = 1075 / 100) by (apply (proj2 (g_star_values m)); lra). rewrite E. split; [reflexivity|lra].
Qed.
Print Assumptions C94_refuted.
Theorem C94_degrees : forall m, (muon_mass < m < lambda_QCD -> g_star m = 1425 / 100) /\ (~ (muon_mass < m < lambda_QCD) -> g_star m = 1075 / 100).
Proof. exact g_star_values. Qed.
Print Assumptions C94_degrees.
Theorem C94_temperature : forall m th T, 0 <= m -> T_rel m th = Fin T ->
  (m < T -> decoupling_temperature m th = Fin (15 / 10 * T)) /\
  (2 / 3 * m <= T <= m -> decoupling_temperature m th = Fin (15 / 10 * m)) /\
  (T < 2 / 3 * m -> decoupling_temperature m th = Fin m).
Proof. exact Tdec_cases. Qed.
Print Assumptions C94_temperature.
Theorem C94_at_least_mass : forall m th, 0 <= m -> th <> 0 -> exists T, decoupling_temperature m th = Fin T /\ m <= T /\ 0 < T.
Proof. exact Tdec_ge_mass. Qed.
Print Assumptions C94_at_least_mass.
Theorem C94_zero_angle : forall m, decoupling_temperature m 0 = PInf.
Proof. intros. unfold decoupling_temperature, T_rel. destruct (Req_EM_T 0 0); [reflexivity|contradiction]. Qed.
Print Assumptions C94_zero_angle.
Example C94_case : lambda_QCD < 200 * MeV /\ muon_mass < 120 * MeV < lambda_QCD /\ exists T, T_rel (120 * MeV) (1 / 1000) = Fin T.
Proof.
  pose proof MeV_pos. unfold lambda_QCD, muon_mass. split; [lra|]. split; [lra|]. unfold T_rel. destruct (Req_EM_T _ 0); [lra|eauto].
Qed.

(* ---------------- C97 ---------------- *)
Theorem C97_number : forall w i1 r fullstack constant v,
  scaling w (i1 :: r) fullstack constant = Ok (Some v) -> creation (i1 :: r) = true -> kfast (ks (last (i1 :: r) i1)) = true ->
  exists b, find_BR (concat_symbols (removelast (i1 :: r))) (kBR (ks (last (i1 :: r) i1))) = Some b /\
    number w (ks i1) (vmul v constant) = b * knum (ks (last (i1 :: r) i1)).
Proof. exact scaling_spec. Qed.
Print Assumptions C97_number.
Theorem C97_zero : forall w i1 r fullstack constant, creation (i1 :: r) = true -> kfast (ks (last (i1 :: r) i1)) = true ->
  number w (ks i1) (vmul fullstack constant) = 0 ->
  scaling w (i1 :: r) fullstack constant = Ok None /\
  (forall k fast dist, tail_3p w (i1 :: r) k fast dist fullstack constant = Ok (return_function k fast (length fullstack)) /\
                       tail_4p w (i1 :: r) k fast dist fullstack constant = Ok (return_function k fast (length fullstack))).
Proof. intros w i1 r F C HC HF HN. assert (E : scaling w (i1 :: r) F C = Ok None) by now apply scaling_zero. split; [auto|]. intros. now apply tail_zero. Qed.
Print Assumptions C97_zero.
(* nothing else is rescaled *)
Theorem C97_untouched : forall w i1 r fullstack constant, creation (i1 :: r) = false \/ kfast (ks (last (i1 :: r) i1)) = false ->
  scaling w (i1 :: r) fullstack constant = Ok (Some fullstack).
Proof. intros w i1 r F C H. apply scaling_other. destruct H as [->| ->]; [reflexivity|apply andb_false_r]. Qed.
Print Assumptions C97_untouched.
(* the key is matched as a bag of characters; the last match of the table wins;
   without a match the local is unbound *)
Theorem C97_matching : forall sym table,
  (forall b, find_BR sym table = Some b -> exists k, In (k, b) table /\ forall c, count_char c sym = count_char c k) /\
  (find_BR sym table = None <-> forall k b, In (k, b) table -> exists c, count_char c sym <> count_char c k) /\
  (forall k b, (forall c, count_char c sym = count_char c k) -> find_BR sym (table ++ [(k, b)]) = Some b).
Proof.
  intros sym table. repeat split.
  - intros b H. destruct (find_BR_in _ _ _ H) as (k & HI & HE). exists k. split; [auto|]. now apply counter_eq_iff.
  - intros H k b HI. pose proof (proj1 (find_BR_none sym table) H k b HI) as HE. unfold counter_eq in HE.
    assert (HX : existsb (fun c => negb (count_char c sym =? count_char c k)%nat) (chars sym ++ chars k) = true).
    { clear - HE. induction (chars sym ++ chars k) as [|c l IH]; [discriminate|]. cbn in *. destruct (count_char c sym =? count_char c k)%nat; [auto|reflexivity]. }
    apply existsb_exists in HX. destruct HX as (c & _ & Hc). exists c. apply Nat.eqb_neq. now apply negb_true_iff.
  - intros H. apply find_BR_none. intros k b HI. destruct (counter_eq sym k) eqn:E; [|reflexivity]. destruct (H k b HI) as (c & Hc). exfalso. apply Hc. now apply counter_eq_iff.
  - intros k b H. apply find_BR_last. now apply counter_eq_iff.
Qed.
Print Assumptions C97_matching.
Theorem C97_unmatched : forall w i1 r fullstack constant, creation (i1 :: r) = true -> kfast (ks (last (i1 :: r) i1)) = true ->
  find_BR (concat_symbols (removelast (i1 :: r))) (kBR (ks (last (i1 :: r) i1))) = None -> number w (ks i1) (vmul fullstack constant) <> 0 ->
  scaling w (i1 :: r) fullstack constant = Raise UnboundLocalError.
Proof. exact scaling_unmatched. Qed.
Print Assumptions C97_unmatched.
Definition ggpi : list kitem := [mkKI (-1) photon; mkKI (-1) photon; mkKI 1 pion].
Example C97_case : creation ggpi = true /\ kfast (ks (last ggpi (mkKI (-1) photon))) = true /\ exists v, scaling [1; 1] ggpi [2; 3] [1; 4] = Ok (Some v).
Proof.
  split; [reflexivity|]. split; [reflexivity|]. unfold ggpi. unfold scaling.
  change (creation _ && _) with true. cbv iota. destruct (Req_EM_T _ 0) as [E|N].
  - exfalso. unfold number, quad, dof_eff, vmul in E. cbn [combine map fold_right fst snd kgrid kmaj kdof photon ks] in E. lra.
  - change (find_BR _ _) with (Some 1). eexists. reflexivity.
Qed.

(* ---------------- C110 ---------------- *)
(* Spec: p1 is a momentum of particle 1 allowed by energy and momentum
   conservation in the decay of particle 3 with momentum q (c: cosine of the
   angle between them); q is on the parent's grid. *)
Definition allowed_3p (m1 m2 m3 q p1 : R) : Prop := exists c, -1 <= c <= 1 /\
  sqrt (p1 ^ 2 + m1 ^ 2) + sqrt (q ^ 2 + p1 ^ 2 - 2 * q * p1 * c + m2 ^ 2) = sqrt (q ^ 2 + m3 ^ 2).
Theorem C110_bounds : forall m1 m2 m3 pmax q p1 massless,
  0 <= m1 -> 0 <= m2 -> 0 < m3 -> 0 <= q <= pmax -> 0 <= p1 -> (massless = true -> m1 = 0) -> allowed_3p m1 m2 m3 q p1 ->
  exists lo hi, bounds_3p massless m1 m2 m3 pmax = (Fin lo, Fin hi) /\ lo <= p1 <= hi.
Proof. intros m1 m2 m3 pm q p1 ml H1 H2 H3 Hq Hp Hml (c & Hc & HE). now apply (bounds_3p_cover m1 m2 m3 pm q p1 c ml). Qed.
Print Assumptions C110_bounds.
(* so no allowed grid point is put into the zero padding *)
Theorem C110_no_allowed_point_dropped : forall g m1 m2 m3 pmax q massless a b c k,
  0 <= m1 -> 0 <= m2 -> 0 < m3 -> 0 <= q <= pmax -> (massless = true -> m1 = 0) ->
  incr g -> (k < length g)%nat -> 0 <= rnth g k -> allowed_3p m1 m2 m3 q (rnth g k) ->
  cutoff_3p g (fst (bounds_3p massless m1 m2 m3 pmax)) (snd (bounds_3p massless m1 m2 m3 pmax)) = Some (a, b, c) ->
  (a <= k < a + length b)%nat.
Proof.
  intros g m1 m2 m3 pm q ml a b c k H1 H2 H3 Hq Hml Hg Hk Hp HA HC.
  destruct (C110_bounds m1 m2 m3 pm q (rnth g k) ml H1 H2 H3 Hq Hp Hml HA) as (lo & hi & E & HL). rewrite E in HC. cbn [fst snd] in HC.
  apply (cutoff_3p_in g (Fin lo) (Fin hi) a b c k); auto; cbn; lra.
Qed.
Print Assumptions C110_no_allowed_point_dropped.
Example C110_case : allowed_3p 0 0 2 0 1.
Proof.
  exists 0. split; [lra|]. replace (1 ^ 2 + 0 ^ 2) with (1 ^ 2) by ring. replace (0 ^ 2 + 1 ^ 2 - 2 * 0 * 1 * 0 + 0 ^ 2) with (1 ^ 2) by ring.
  replace (0 ^ 2 + 2 ^ 2) with (2 ^ 2) by ring. rewrite !sqrt_sq by lra. lra.
Qed.

(* ---------------- C111 ---------------- *)
Theorem C111_bound : forall m1 m2 m3 m4 pmax mx p1 p2 p3 p4,
  0 <= m1 -> 0 <= m2 -> 0 <= m3 -> 0 <= p1 -> 0 <= p4 <= pmax ->
  sqrt (p1 ^ 2 + m1 ^ 2) + sqrt (p2 ^ 2 + m2 ^ 2) + sqrt (p3 ^ 2 + m3 ^ 2) = sqrt (p4 ^ 2 + m4 ^ 2) ->
  exists b, bound_4p m1 m2 m3 m4 pmax mx = Fin b /\ p1 <= b /\ mx * MeV <= b.
Proof. exact bound_4p_cover. Qed.
Print Assumptions C111_bound.
Theorem C111_no_allowed_point_dropped : forall g m1 m2 m3 m4 pmax mx p2 p3 p4 k,
  0 <= m1 -> 0 <= m2 -> 0 <= m3 -> 0 <= p4 <= pmax -> incr g -> (k < length g)%nat -> 0 <= rnth g k ->
  sqrt (rnth g k ^ 2 + m1 ^ 2) + sqrt (p2 ^ 2 + m2 ^ 2) + sqrt (p3 ^ 2 + m3 ^ 2) = sqrt (p4 ^ 2 + m4 ^ 2) ->
  (k < length (fst (slices_4p g (bound_4p m1 m2 m3 m4 pmax mx))))%nat.
Proof.
  intros g m1 m2 m3 m4 pm mx p2 p3 p4 k H1 H2 H3 Hp4 Hg Hk Hp HE.
  destruct (bound_4p_cover m1 m2 m3 m4 pm mx (rnth g k) p2 p3 p4 H1 H2 H3 Hp Hp4 HE) as (b & E & HB & _). rewrite E.
  apply slices_4p_cover; auto.
Qed.
Print Assumptions C111_no_allowed_point_dropped.
(* a forbidden creation gives a NaN bound and the whole grid is computed *)
Theorem C111_forbidden : forall g m1 m2 m3 m4 pmax mx, g <> [] -> (sqrt (pmax ^ 2 + m4 ^ 2) - m2 - m3) ^ 2 < m1 ^ 2 ->
  bound_4p m1 m2 m3 m4 pmax mx = NaN /\ slices_4p g (bound_4p m1 m2 m3 m4 pmax mx) = (g, 0%nat).
Proof.
  intros g m1 m2 m3 m4 pm mx Hg H. assert (E : bound_4p m1 m2 m3 m4 pm mx = NaN).
  { unfold bound_4p, nsqrt. destruct (Rlt_dec _ 0); [reflexivity|lra]. }
  rewrite E. split; [reflexivity|]. unfold slices_4p, ssl. destruct g as [|y g]; [contradiction|].
  replace (Nat.min (length (y :: g) - 1) (length (y :: g))) with (length (y :: g) - 1)%nat by lia.
  replace (length (y :: g) - 1 + 1)%nat with (length (y :: g)) by (cbn; lia). rewrite firstn_all. f_equal. lia.
Qed.
Print Assumptions C111_forbidden.
Example C111_case : sqrt (1 ^ 2 + 0 ^ 2) + sqrt (1 ^ 2 + 0 ^ 2) + sqrt (1 ^ 2 + 0 ^ 2) = sqrt (0 ^ 2 + 3 ^ 2).
Proof. replace (1 ^ 2 + 0 ^ 2) with (1 ^ 2) by ring. replace (0 ^ 2 + 3 ^ 2) with (3 ^ 2) by ring. rewrite !sqrt_sq by lra. lra. Qed.

(* ---------------- C112 ---------------- *)
(* claim: the meson used for the resolution is the heaviest one lighter than the
   sterile neutrino *)
Theorem C112_heaviest_lighter : forall mass, 13498 / 100 * MeV < mass ->
  (In (chosen_meson mesons_nu mass) mesons_nu /\ chosen_meson mesons_nu mass < mass /\ (forall x, In x mesons_nu -> x < mass -> x <= chosen_meson mesons_nu mass)) /\
  (In (chosen_meson mesons mass) mesons /\ chosen_meson mesons mass < mass /\ (forall x, In x mesons -> x < mass -> x <= chosen_meson mesons mass)).
Proof. intros mass H. split; apply chosen_heaviest; auto using mesons_nu_incr, mesons_incr; cbn; lia. Qed.
Print Assumptions C112_heaviest_lighter.
(* at the pion mass itself, which passes the guard `mass < pion_mass`, the index
   is -1: the phi meson, which is heavier *)
Theorem C112_refuted : let mass := 13498 / 100 * MeV in
  ~ (mass < 13498 / 100 * MeV) /\ chosen_meson mesons_nu mass = 101946 / 100 * MeV /\ chosen_meson mesons mass = 101946 / 100 * MeV /\
  mass < chosen_meson mesons_nu mass.
Proof.
  cbv zeta. assert (A : chosen_meson mesons_nu (13498 / 100 * MeV) = 101946 / 100 * MeV).
  { rewrite chosen_at_pion; [reflexivity|apply mesons_nu_incr|cbn; lia|apply Rle_refl]. }
  assert (B : chosen_meson mesons (13498 / 100 * MeV) = 101946 / 100 * MeV).
  { rewrite chosen_at_pion; [reflexivity|apply mesons_incr|cbn; lia|apply Rle_refl]. }
  rewrite A, B. pose proof MeV_pos. repeat split; lra.
Qed.
Print Assumptions C112_refuted.
Theorem C112_resolutions : forall res mass, 0 < res -> 0 < mass ->
  0 < res_neutrino res mass <= res * MeV /\ 0 < res_meson res mass <= res * MeV.
Proof. intros. split; [now apply res_neutrino_bounds|now apply res_meson_bounds]. Qed.
Print Assumptions C112_resolutions.
Example C112_case : 13498 / 100 * MeV < 500 * MeV.
Proof. pose proof MeV_pos. lra. Qed.

(* ---------------- C113 ---------------- *)
(* copies s r: how often the first particle of r occurs on side s *)
Definition involved (r : list kitem) (parent : nat) : Prop :=
  (exists i, In i r /\ kname (ks i) = sterile) \/
  (creation r = true /\ exists i p, nth_error r 0 = Some i /\ nth_error r parent = Some p /\
     (kmaj (ks p) = false \/ kQ (ks i) = Some 0)).
Lemma has_sterile_iff r : has_sterile r = true <-> exists i, In i r /\ kname (ks i) = sterile.
Proof.
  unfold has_sterile. rewrite existsb_exists. split; intros (i & HI & H); exists i; (split; [auto|]).
  - apply String.eqb_eq in H. auto.
  - apply String.eqb_eq. auto.
Qed.
Lemma involved_iff r n i p (b : bool) : nth_error r 0 = Some i -> nth_error r n = Some p ->
  (if has_sterile r then Ok true else if creation r then neutral_or_dirac (ks p) (ks i) else Ok false) = Ok b -> (b = true <-> involved r n).
Proof.
  intros Hi Hp H. unfold involved. rewrite <- has_sterile_iff. destruct (has_sterile r) eqn:ES; [injection H as <-; tauto|].
  destruct (creation r) eqn:EC.
  - unfold neutral_or_dirac in H. destruct (kmaj (ks p)) eqn:EM.
    + destruct (kQ (ks i)) as [q|] eqn:EQ; [|discriminate]. injection H as <-. destruct (Req_EM_T q 0) as [->|N].
      * split; [intros _; right; split; [auto|]; exists i, p; auto|auto].
      * split; [discriminate|]. intros [|(_ & i' & p' & Hi' & Hp' & [A|B])]; [discriminate| |]; rewrite Hi in Hi'; rewrite Hp in Hp'; injection Hi' as <-; injection Hp' as <-; congruence.
    + injection H as <-. split; [intros _; right; split; [auto|]; exists i, p; auto|auto].
  - injection H as <-. split; [discriminate|]. intros [|[? _]]; discriminate.
Qed.
Theorem C113_four : forall r v, multiplier_4p r = Ok v ->
  (~ involved r 3 -> v = 1) /\
  (involved r 3 -> v = match copies (-1) r, copies 1 r with
                       | 2%nat, 0%nat | 2%nat, 1%nat => 2 | 3%nat, 0%nat => 3 | _, _ => 1 end).
Proof.
  intros r v H. destruct r as [|i1 [|i2 [|i3 [|i4 r]]]]; try discriminate. set (rr := i1 :: i2 :: i3 :: i4 :: r) in *. unfold multiplier_4p in H. change rr with (i1 :: i2 :: i3 :: i4 :: r) in H at 1. cbv beta iota in H.
  match type of H with rbind ?m _ = _ => destruct m as [b|e] eqn:EB end; [|discriminate]. cbn [rbind] in H.
  pose proof (involved_iff rr 3 i1 i4 b eq_refl eq_refl EB) as HI.
  unfold rr in H. rewrite !count_side_copies in H. fold rr in H. clear EB. revert H HI. generalize (copies (-1) rr) (copies 1 rr). intros a c H HI. injection H as <-. split.
  - intros HN. destruct b; [tauto|reflexivity].
  - intros HY. apply HI in HY. subst b.
    destruct a as [|[|[|[|n]]]]; destruct c as [|[|m]]; reflexivity.
Qed.
Print Assumptions C113_four.
Theorem C113_three : forall r v, multiplier_3p r = Ok v ->
  (~ involved r 2 -> v = 1) /\ (involved r 2 -> v = match copies (-1) r, copies 1 r with 2%nat, 0%nat => 2 | _, _ => 1 end).
Proof.
  intros r v H. destruct r as [|i1 [|i2 [|i3 r]]]; try discriminate. set (rr := i1 :: i2 :: i3 :: r) in *. unfold multiplier_3p in H. change rr with (i1 :: i2 :: i3 :: r) in H at 1. cbv beta iota in H.
  match type of H with rbind ?m _ = _ => destruct m as [b|e] eqn:EB end; [|discriminate]. cbn [rbind] in H.
  pose proof (involved_iff rr 2 i1 i3 b eq_refl eq_refl EB) as HI.
  unfold rr in H. rewrite !count_side_copies in H. fold rr in H. clear EB. revert H HI. generalize (copies (-1) rr) (copies 1 rr). intros a c H HI. injection H as <-. split.
  - intros HN. destruct b; [tauto|reflexivity].
  - intros HY. apply HI in HY. subst b.
    destruct a as [|[|[|[|n]]]]; destruct c as [|[|m]]; reflexivity.
Qed.
Print Assumptions C113_three.
(* a particle without a charge attribute, created by a Majorana parent *)
Theorem C113_no_charge : forall i1 i2 i3 i4, let r := [i1; i2; i3; i4] in
  (forall i, In i r -> kname (ks i) <> sterile) -> creation r = true -> kmaj (ks i4) = true -> kQ (ks i1) = None -> multiplier_4p r = Raise AttributeError.
Proof.
  intros i1 i2 i3 i4 r HS HC HM HQ. unfold multiplier_4p. change r with [i1; i2; i3; i4] at 1. cbv beta iota.
  destruct (has_sterile r) eqn:ES; [apply has_sterile_iff in ES; destruct ES as (i & HI & HE); exfalso; exact (HS i HI HE)|].
  rewrite HC. unfold neutral_or_dirac. rewrite HM, HQ. reflexivity.
Qed.
Print Assumptions C113_no_charge.
Definition hnl : kspecie := mkK 9 sterile 1 1 [0; 1] 1 true (Some 0) false false 0 [] "N" 2 1 1.
Definition nu : kspecie := mkK 3 "Electron neutrino" 0 0 [0; 1] 1 true (Some 0) false false 0 [] "v" 2 1 1.
Example C113_case : multiplier_4p [mkKI (-1) nu; mkKI (-1) nu; mkKI (-1) nu; mkKI 1 hnl] = Ok 3 /\ involved [mkKI (-1) nu; mkKI (-1) nu; mkKI (-1) nu; mkKI 1 hnl] 3.
Proof. split; [reflexivity|]. left. exists (mkKI 1 hnl). split; [cbn; tauto|reflexivity]. Qed.

(* ---------------- C114 ---------------- *)
Theorem C114_four_creation : forall rel T m a i1 i2 i3 i4 t, let r := i1 :: i2 :: i3 :: i4 :: t in creation r = true ->
  (neglect_4p rel T m a r = Ok true <-> kdecayed (ks (last r i1)) = true \/ (kfast (ks (last r i1)) = true /\ knum (ks (last r i1)) = 0)).
Proof.
  intros rel T m a i1 i2 i3 i4 t r HC. set (l := ks (last r i1)).
  assert (HD : decay r = false /\ scattering r = false).
  { unfold creation, decay, scattering in *. cbn [existsb] in *. destruct (Z.eqb_spec (ksum r) (-1)) as [E|]; [rewrite E; auto|]. destruct (Z.eqb_spec (ksum r) (-2)) as [E|]; [rewrite E; auto|discriminate]. }
  unfold neglect_4p. change r with (i1 :: i2 :: i3 :: i4 :: t) at 1. cbv beta iota zeta. fold l. destruct HD as [-> ->]. rewrite HC. cbn [andb orb].
  destruct (kdecayed l); [tauto|]. destruct (kfast l); cbn [andb orb].
  - destruct (Req_EM_T (knum l) 0) as [E|N]; cbn [andb orb]; [tauto|]. split; [discriminate|]. intros [|[_ E]]; [discriminate|contradiction].
  - split; [discriminate|]. intros [|[E _]]; discriminate.
Qed.
Print Assumptions C114_four_creation.
Theorem C114_four_decay : forall rel T m a i1 i2 i3 i4 t, let r := i1 :: i2 :: i3 :: i4 :: t in decay r = true ->
  (neglect_4p rel T m a r = Ok true <-> (kfast (ks i1) = true /\ knum (ks i1) = 0) \/ (kname (ks i1) = sterile /\ kmass (ks i1) < T)).
Proof.
  intros rel T m a i1 i2 i3 i4 t r HC.
  assert (HD : creation r = false /\ scattering r = false).
  { unfold creation, decay, scattering in *. cbn [existsb] in *. destruct (Z.eqb_spec (ksum r) 1) as [E|]; [rewrite E; auto|]. destruct (Z.eqb_spec (ksum r) 2) as [E|]; [rewrite E; auto|discriminate]. }
  unfold neglect_4p. change r with (i1 :: i2 :: i3 :: i4 :: t) at 1. cbv beta iota zeta. destruct HD as [-> ->]. rewrite HC. cbn [andb orb].
  destruct (kfast (ks i1)); destruct (Req_EM_T (knum (ks i1)) 0) as [E|N]; cbn [andb orb]; try tauto;
    destruct (String.eqb_spec (kname (ks i1)) sterile) as [EN|NN]; destruct (Rlt_dec (kmass (ks i1)) T) as [HL|HL]; cbn [andb];
    split; intros HH; try tauto; try discriminate; try (destruct HH as [[? ?]|[? ?]]; contradiction || discriminate).
Qed.
Print Assumptions C114_four_decay.
(* scattering: kept when a pair of particles on the same side of the test is not
   diluted and the sterile-neutrino condition does not apply; a particle with
   zero initial density never counts as diluted *)
Definition dense (thr : R) (s : kspecie) : Prop := kdensity0 s = 0 /\ 0 <= kdensity s \/ 0 < kdensity0 s /\ thr * kdensity0 s <= kdensity s.
Lemma dense_not thr s : dense thr s -> diluted thr s = false.
Proof.
  intros [[H0 H]|[H0 H]]; [now apply not_diluted_zero|]. destruct (diluted thr s) eqn:E; [|reflexivity]. apply (diluted_iff thr s H0) in E. lra.
Qed.
Theorem C114_scattering_kept : forall rel T m a i1 i2 i3 i4 t, let r := i1 :: i2 :: i3 :: i4 :: t in let thr := / 10 ^ 10 * (a / 10) ^ 3 in scattering r = true ->
  (dense thr (ks i1) /\ dense thr (ks i2) \/ dense thr (ks i3) /\ dense thr (ks i4)) ->
  ((forall i, In i r -> kname (ks i) <> sterile) \/ (MeV <= T /\ (rel = true -> m / a / 15 <= T))) ->
  neglect_4p rel T m a r = Ok false.
Proof.
  intros rel T m a i1 i2 i3 i4 t r thr HC HD HS.
  assert (HX : creation r = false /\ decay r = false).
  { unfold creation, decay, scattering in *. cbn [existsb] in *. destruct (Z.eqb_spec (ksum r) 0) as [E|]; [rewrite E; auto|discriminate]. }
  unfold neglect_4p. change r with (i1 :: i2 :: i3 :: i4 :: t) at 1. cbv beta iota zeta. fold thr. destruct HX as [-> ->]. rewrite HC. cbn [andb orb].
  assert (HF : (diluted thr (ks i1) || diluted thr (ks i2)) && (diluted thr (ks i3) || diluted thr (ks i4)) = false).
  { destruct HD as [[A B]|[A B]]; rewrite (dense_not _ _ A), (dense_not _ _ B); cbn; auto. apply andb_false_r. }
  rewrite HF. destruct HS as [HS|[HT HR]].
  - destruct (has_sterile r) eqn:ES; [|reflexivity]. apply has_sterile_iff in ES. destruct ES as (i & HI & HE). exfalso. exact (HS i HI HE).
  - destruct (Rlt_dec T MeV); [lra|]. destruct rel; cbn [andb orb]; [destruct (Rlt_dec T (m / a / 15)); [specialize (HR eq_refl); lra|]|]; cbn; now rewrite andb_false_r.
Qed.
Print Assumptions C114_scattering_kept.
(* three-particle integrals: an inverse decay of a massless particle is always
   skipped; a decayed parent is skipped only for the full kinds and for
   fast-decaying particles *)
Theorem C114_three : forall k fast i1 i2 t, let r := i1 :: i2 :: t in
  (kmass (ks i1) = 0 -> kside i2 = 1%Z -> neglect_3p k fast r = Ok true) /\
  (kside i2 = (-1)%Z -> is_full k = false -> fast = false -> neglect_3p k fast r = Ok false) /\
  (kside i2 = (-1)%Z -> creation r = true -> is_full k = true \/ fast = true ->
    (neglect_3p k fast r = Ok true <-> kdecayed (ks (last r i1)) = true \/ (kfast (ks (last r i1)) = true /\ knum (ks (last r i1)) = 0))).
Proof.
  intros k fast i1 i2 t r. subst r. unfold neglect_3p. cbv beta iota zeta. set (l := ks (last (i1 :: i2 :: t) i1)). split; [|split].
  - intros HM HS. rewrite HS. destruct (Req_EM_T (kmass (ks i1)) 0); [reflexivity|contradiction].
  - intros HS HK HF. rewrite HS, HK, HF. cbn [orb]. rewrite !andb_false_r. reflexivity.
  - intros HS HC HKF. rewrite HS. assert (HD : decay (i1 :: i2 :: t) = false).
    { unfold creation, decay in *. set (r := i1 :: i2 :: t) in *. cbn [existsb] in *. destruct (Z.eqb_spec (ksum r) (-1)) as [E|]; [rewrite E; auto|]. destruct (Z.eqb_spec (ksum r) (-2)) as [E|]; [rewrite E; auto|discriminate]. }
    rewrite HD, HC. replace (is_full k || fast) with true by (destruct HKF as [-> | ->]; [reflexivity|now rewrite orb_true_r]).
    change (Z.eqb (-1) 1) with false. rewrite andb_false_r. cbn [andb orb]. rewrite !andb_true_r, orb_false_r. fold l. destruct (kdecayed l); [tauto|]. destruct (kfast l); cbn [andb].
    + destruct (Req_EM_T (knum l) 0) as [E|N]; [tauto|]. split; [discriminate|]. intros [|[_ E]]; [discriminate|contradiction].
    + split; [discriminate|]. intros [|[E _]]; discriminate.
Qed.
Print Assumptions C114_three.
Example C114_case : creation [mkKI (-1) nu; mkKI (-1) nu; mkKI (-1) nu; mkKI 1 hnl] = true /\ dense 1 nu /\
  scattering [mkKI (-1) nu; mkKI (-1) (plain 1); mkKI 1 (plain 2); mkKI 1 nu] = true.
Proof. split; [reflexivity|]. split; [right; cbn; lra|reflexivity]. Qed.

(* ---------------- C115 ---------------- *)
Theorem C115_HNL_grid : forall mass th, 0 <= mass -> exists n mx, params_HNL mass th = Some (n, mx) /\
  199 * MeV < mx < 400 * MeV /\ (199 <= n <= 800)%Z /\ IZR n <= mx / res_HNL < IZR n + 1 /\
  (forall T, decoupling_temperature mass th = Fin T -> exp (- (sqrt (mx ^ 2 + (mass * (MeV / T)) ^ 2) / MeV)) = / 10 ^ 100).
Proof. exact params_HNL_bounds. Qed.
Print Assumptions C115_HNL_grid.
Example C115_case : exists T, decoupling_temperature (100 * MeV) (1 / 1000) = Fin T.
Proof. destruct (C94_at_least_mass (100 * MeV) (1 / 1000)) as (T & H & _); [pose proof MeV_pos; lra|lra|eauto]. Qed.
