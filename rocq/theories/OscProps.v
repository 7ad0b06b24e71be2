(* C88, C89, C108, C109: neutrino oscillations. *)
From Coq Require Import Reals Lra Psatz Permutation.
From Verif Require Import Base ParamsModel ParamsProofs OscModel OscProofs.
From Verif Require EvolveModel ParticleModel.
Open Scope R_scope.

(* ---------- C88 ---------- *)
(* pat p i a b: the entry (a, b) of the dictionary at grid index i; fits n: a
   scalar or a vector of n values. *)
Theorem C88_pattern : forall m12 m13 matter n p, fits n m12 -> fits n m13 -> oscillations_map (Some m12) (Some m13) matter = Ok p ->
  (forall a b, In a flavours -> In b flavours -> exists z, p a b = Ok z /\ fits n z) /\
  (forall i, (i < n)%nat -> forall a b, In a flavours -> In b flavours -> pat p i a b = pat p i b a /\ 0 <= pat p i a b <= 1) /\
  (forall i, (i < n)%nat -> forall a, In a flavours -> pat p i a "electron" + pat p i a "muon" + pat p i a "tau" = 1).
Proof.
  intros m12 m13 matter n p H1 H2 E.
  assert (X : exists t12 t13, p = pattern_of t12 t13 /\ fits n t12 /\ fits n t13).
  { destruct matter; injection E as <-; [exists (amap (matter_angle th12_vac) m12), (amap (matter_angle th13_vac) m13)|exists (Sc th12_vac), (Sc th13_vac)];
    repeat split; now apply amap_fits. }
  destruct X as (t12 & t13 & -> & F1 & F2).
  assert (P : forall a b e i, find_entry a b = Ok e -> (i < n)%nat -> pat (pattern_of t12 t13) i a b = prob e (at_ i t12) (at_ i t13)).
  { intros a b e i Ee Hi. destruct (pattern_at n t12 t13 a b e F1 F2 Ee) as (z & Ez & _ & Az). unfold pat. rewrite Ez. auto. }
  split; [|split].
  - intros a b Ha Hb. destruct (find_ok a b Ha Hb) as (e & Ee & _). destruct (pattern_at n t12 t13 a b e F1 F2 Ee) as (z & Ez & Fz & _). eauto.
  - intros i Hi a b Ha Hb. destruct (find_ok a b Ha Hb) as (e & Ee & Ee'). rewrite (P a b e i Ee Hi), (P b a e i Ee' Hi). split; [reflexivity|]. apply prob_range.
  - intros i Hi a Ha. destruct (prob_rows (at_ i t12) (at_ i t13)) as (R1 & R2 & R3).
    cbn in Ha. destruct Ha as [<-|[<-|[<-|[]]]]; erewrite !P by (reflexivity || auto); auto.
Qed.
Print Assumptions C88_pattern.
(* entries are the phase-averaged probabilities sum_k |U_ak|^2 |U_bk|^2 of the
   mixing matrix with theta_23 = 0 *)
Theorem C88_averaged_probabilities : forall e t12 t13, prob e t12 t13 =
  U2 t12 t13 (row e) 0 * U2 t12 t13 (col e) 0 + U2 t12 t13 (row e) 1 * U2 t12 t13 (col e) 1 + U2 t12 t13 (row e) 2 * U2 t12 t13 (col e) 2.
Proof. exact prob_U. Qed.
Print Assumptions C88_averaged_probabilities.
(* survival probabilities stay away from zero *)
Theorem C88_survival : forall t12 t13, 1 / 3 <= prob EE t12 t13 /\ 1 / 2 <= prob MM t12 t13 /\ 1 / 3 <= prob TT t12 t13.
Proof.
  intros t12 t13. destruct (prob_range EE t12 t13) as (_ & A & _). destruct (prob_range MM t12 t13) as (_ & _ & B). destruct (prob_range TT t12 t13) as (_ & C & _).
  repeat split; auto.
Qed.
Print Assumptions C88_survival.
(* the matter angle has the MSW amplitude and reduces to the vacuum angle *)
Theorem C88_matter : forall msw, 
  (forall th, sin (2 * th) <> 0 -> sin (2 * matter_angle th msw) ^ 2 = sin (2 * th) ^ 2 / (sin (2 * th) ^ 2 + (cos (2 * th) + msw) ^ 2)) /\
  matter_angle th12_vac 0 = th12_vac /\ matter_angle th13_vac 0 = th13_vac /\ (forall th, - (PI / 4) <= matter_angle th msw <= PI / 4).
Proof.
  intros msw. pose proof PI2_3_2. split; [intros; now apply matter_sin2|]. unfold th12_vac, th13_vac. split; [apply matter_vac; lra|]. split; [apply matter_vac; lra|]. intros; apply matter_range.
Qed.
Print Assumptions C88_matter.
(* mixing with the library pattern conserves the flavour sum of the integrals,
   whatever the order in which the three flavours are listed *)
Theorem C88_mixing_conserves : forall m12 m13 matter n p T ps qs i, fits n m12 -> fits n m13 -> oscillations_map (Some m12) (Some m13) matter = Ok p ->
  Permutation (map flavour ps) flavours -> Forall (fun B => fits n (coll B)) ps -> (i < n)%nat -> mix p T ps = Ok qs ->
  sumR (fun A => at_ i (coll A)) qs = sumR (fun A => at_ i (coll A)) ps.
Proof.
  intros m12 m13 matter n p T ps qs i H1 H2 E HP HF Hi EQ. destruct (C88_pattern m12 m13 matter n p H1 H2 E) as (P1 & P2 & P3).
  assert (HIn : forall A, In A ps -> In (flavour A) flavours) by (intros A HA; apply (Permutation_in _ HP); now apply in_map).
  destruct (Classical_Prop.classic (below T ps)) as [HB|HB].
  - apply (mix_conserves p n T ps qs i); auto.
    + apply (Permutation_NoDup (Permutation_sym HP)). repeat (apply NoDup_cons; [cbn; intuition discriminate|]). apply NoDup_nil.
    + intros A B HA HB'. apply P1; auto.
    + intros B HB'. change (sumR (fun A => pat p i (flavour A) (flavour B)) ps) with (sumR (fun A => (fun a => pat p i a (flavour B)) (flavour A)) ps).
      rewrite <- (sumR_map flavour (fun a => pat p i a (flavour B))). rewrite (sumR_perm _ _ _ HP). cbn [flavours sumR].
      assert (IE : In "electron"%string flavours /\ In "muon"%string flavours /\ In "tau"%string flavours) by (cbn; tauto). destruct IE as (I1 & I2 & I3).
      rewrite <- (P3 i Hi (flavour B) (HIn B HB')).
      rewrite (proj1 (P2 i Hi "electron"%string _ I1 (HIn B HB'))), (proj1 (P2 i Hi "muon"%string _ I2 (HIn B HB'))), (proj1 (P2 i Hi "tau"%string _ I3 (HIn B HB'))). ring.
  - rewrite mix_none in EQ; [now injection EQ as <-|]. intros A HA. destruct (Rlt_dec T (Tdec A)) as [HL|HL]; [|lra]. exfalso. apply HB. now exists A.
Qed.
Print Assumptions C88_mixing_conserves.
Example C88_case : exists p, oscillations_map (Some (Ar [0; 3; -1])) (Some (Ar [1; 2; -1])) true = Ok p /\ fits 3 (Ar [0; 3; -1]) /\ fits 3 (Ar [1; 2; -1]) /\
  Permutation (map flavour [mkNu "tau" 1 (Ar [1; 2; 3]); mkNu "electron" 2 (Ar [0; 0; 5]); mkNu "muon" 3 (Ar [1; 1; 1])]) flavours.
Proof.
  eexists. split; [reflexivity|]. split; [reflexivity|]. split; [reflexivity|]. cbn.
  apply perm_trans with ["electron"; "tau"; "muon"]%string; [apply perm_swap|]. apply perm_skip, perm_swap.
Qed.

(* ---------- C89 ---------- *)
(* Every mixed integral is the weighted sum of the integrals as they were
   before any of them was replaced. *)
Theorem C89_snapshot : forall p n T ps, NoDup (map flavour ps) -> serves p n ps -> Forall (fun B => fits n (coll B)) ps ->
  (exists A, In A ps /\ T < Tdec A) ->
  exists qs, mix p T ps = Ok qs /\ length qs = length ps /\
    forall k A, nth_error ps k = Some A -> exists A', nth_error qs k = Some A' /\ flavour A' = flavour A /\ Tdec A' = Tdec A /\
      forall i, (i < n)%nat -> at_ i (coll A') = sumR (fun B => pat p i (flavour A) (flavour B) * at_ i (coll B)) ps.
Proof.
  intros p n T ps HN HS HF HB. rewrite (mix_ok p n T ps HN HS HF HB). eexists. split; [reflexivity|]. split; [apply map_length|].
  intros k A HA. rewrite nth_error_map, HA. cbn [option_map]. eexists. split; [reflexivity|]. repeat split. intros i Hi. cbn [set_coll coll].
  apply (mval_at p n); auto. eapply nth_error_In; eauto.
Qed.
Print Assumptions C89_snapshot.
(* order of processing is irrelevant *)
Theorem C89_order : forall p n T ps ps' qs qs' A A' i, NoDup (map flavour ps) -> Permutation ps ps' -> serves p n ps -> Forall (fun B => fits n (coll B)) ps ->
  mix p T ps = Ok qs -> mix p T ps' = Ok qs' -> In A qs -> In A' qs' -> flavour A = flavour A' -> (i < n)%nat -> at_ i (coll A) = at_ i (coll A').
Proof.
  intros p n T ps ps' qs qs' A A' i HN HP HS HF E E' HA HA' HFl Hi.
  assert (HN' : NoDup (map flavour ps')) by (apply (Permutation_NoDup (Permutation_map flavour HP)); auto).
  assert (HS' : serves p n ps') by (intros X Y HX HY; apply HS; apply (Permutation_in _ (Permutation_sym HP)); auto).
  assert (HF' : Forall (fun B => fits n (coll B)) ps').
  { apply Forall_forall. intros X HX. apply (proj1 (Forall_forall _ _) HF). apply (Permutation_in _ (Permutation_sym HP)); auto. }
  destruct (Classical_Prop.classic (below T ps)) as [HB|HB].
  - assert (HB' : below T ps') by (destruct HB as (X & HX & HT); exists X; split; [apply (Permutation_in _ HP); auto|auto]).
    rewrite (mix_ok p n T ps HN HS HF HB) in E. rewrite (mix_ok p n T ps' HN' HS' HF' HB') in E'. injection E as <-. injection E' as <-.
    apply in_map_iff in HA. destruct HA as (B & <- & HB1). apply in_map_iff in HA'. destruct HA' as (B' & <- & HB1'). cbn [set_coll coll flavour] in *.
    rewrite (mval_at p n ps B) by auto. rewrite (mval_at p n ps' B') by auto. rewrite HFl. apply sumR_perm. auto.
  - assert (L : forall X, In X ps -> Tdec X <= T) by (intros X HX; destruct (Rlt_dec T (Tdec X)); [exfalso; apply HB; now exists X|lra]).
    rewrite mix_none in E by auto. rewrite mix_none in E' by (intros X HX; apply L; apply (Permutation_in _ (Permutation_sym HP)); auto).
    injection E as <-. injection E' as <-. apply (Permutation_in _ (Permutation_sym HP)) in HA'.
    pose proof (lookup_self ps A HA HN) as LA. pose proof (lookup_self ps A' HA' HN) as LB. rewrite HFl in LA. rewrite LA in LB. injection LB as ->. reflexivity.
Qed.
Print Assumptions C89_order.
(* no mixing while every flavour is at or above its decoupling temperature *)
Theorem C89_only_below_decoupling : forall p T ps, (forall A, In A ps -> Tdec A <= T) -> mix p T ps = Ok ps.
Proof. exact mix_none. Qed.
Print Assumptions C89_only_below_decoupling.
(* a flavour the pattern does not know stops the step *)
Theorem C89_unknown_flavour : forall m12 m13 matter p T ps qs, oscillations_map m12 m13 matter = Ok p -> below T ps -> mix p T ps = Ok qs ->
  Forall (fun A => In (flavour A) flavours) ps.
Proof.
  intros m12 m13 matter p T ps qs E (A0 & HA0 & HT) EQ. assert (HP : exists t12 t13, p = pattern_of t12 t13).
  { unfold oscillations_map in E. destruct matter; [destruct m12, m13; try discriminate E|]; injection E as <-; eauto. }
  destruct HP as (t12 & t13 & ->). unfold mix in EQ.
  assert (HX : existsb (fun A : nu => if Rlt_dec T (Tdec A) then true else false) ps = true).
  { apply existsb_exists. exists A0. split; [auto|]. destruct (Rlt_dec _ _); [reflexivity|lra]. }
  rewrite HX in EQ. apply Forall_forall. intros A HA.
  destruct (each_inv _ _ _ A EQ HA) as [y EY]. destruct (mixed (pattern_of t12 t13) ps A) as [z|] eqn:M; [|discriminate EY].
  apply (mixed_first t12 t13 ps A z); [|exact M]. intros ->. destruct HA.
Qed.
Print Assumptions C89_unknown_flavour.
Example C89_case : let ps := [mkNu "electron" 1 (Ar [1; 2]); mkNu "tau" 2 (Ar [0; 5])] in
  NoDup (map flavour ps) /\ (exists A, In A ps /\ 3 / 2 < Tdec A) /\ Forall (fun B => fits 2 (coll B)) ps /\ exists p, oscillations_map None None false = Ok p /\ serves p 2 ps.
Proof.
  cbn zeta. split; [repeat (apply NoDup_cons; [cbn; intuition discriminate|]); apply NoDup_nil|]. split.
  - eexists. split; [right; left; reflexivity|]. cbn. lra.
  - split; [repeat (apply Forall_cons; [reflexivity|]); apply Forall_nil|]. eexists. split; [reflexivity|].
    intros A B HA HB. cbn in HA, HB. destruct HA as [<-|[<-|[]]], HB as [<-|[<-|[]]]; eexists; (split; [reflexivity|exact I]).
Qed.

(* ---------- C108 ---------- *)
(* The bundled scripts call oscillations_map() without arguments. Its defaults
   are MSW_12 = MSW_13 = None with matter_effects = True. *)
Theorem C108_default_call_refuted : oscillations_map None None true = Raise TypeError.
Proof. reflexivity. Qed.
Print Assumptions C108_default_call_refuted.
(* It returns a pattern exactly when matter effects are off or both MSW
   parameters are given. *)
Theorem C108_when_callable : forall m12 m13 matter, (exists p, oscillations_map m12 m13 matter = Ok p) <-> (matter = true -> m12 <> None /\ m13 <> None).
Proof.
  intros m12 m13 matter. unfold oscillations_map. destruct matter; [|split; [discriminate|eauto]].
  destruct m12, m13; split; try (intros [p E]; discriminate E); try (intros H; destruct (H eq_refl); congruence).
  - intros _ _. split; discriminate.
  - eauto.
Qed.
Print Assumptions C108_when_callable.
(* through the universe the parameters are always given: only a missing
   oscillating particle makes it fail *)
Theorem C108_universe_call : forall msw0 T a normal matter template,
  (exists p, osc_parameters oscillations_map msw0 T a normal matter template = Ok p) <-> (matter = true -> template <> None).
Proof.
  intros msw0 T a normal matter template. unfold osc_parameters. destruct matter.
  - destruct template; split; try discriminate.
    + cbn. eauto.
    + intros [p E]; discriminate E.
    + intros H. exfalso. now apply H.
  - split; [discriminate|]. cbn. eauto.
Qed.
Print Assumptions C108_universe_call.
Example C108_case : exists p, osc_parameters oscillations_map 1 1 1 true true (Some [1; 2]) = Ok p.
Proof. cbn. eauto. Qed.

(* ---------- C109 ---------- *)
(* fval i q: distribution of particle q at grid index i; cval i q: its collision
   integral before mixing. If every flavour has left equilibrium and no value
   is clipped at zero, the flavour-summed distribution changes by h times the
   flavour-summed collision integral. *)
Theorem C109_summed_change : forall m12 m13 matter n p T e l i, fits n m12 -> fits n m13 -> oscillations_map (Some m12) (Some m13) matter = Ok p ->
  Permutation (map fst l) flavours -> Forall (fun fp => ready n (snd fp)) l -> (i < n)%nat ->
  (exists fp, In fp l /\ T < ParticleModel.Tdec (snd (snd fp))) ->
  (forall fp j, In fp l -> (j < n)%nat -> 0 <= fval j (snd fp) + ParticleModel.eh e * sumR (fun gp => pat p j (fst fp) (fst gp) * cval j (snd gp)) l) ->
  exists qs, osc_update p T e l = Ok qs /\
    sumR (fval i) qs = sumR (fun fp => fval i (snd fp)) l + ParticleModel.eh e * sumR (fun fp => cval i (snd fp)) l.
Proof.
  intros m12 m13 matter n p T e l i H1 H2 E HP HR Hi HT HC. destruct (C88_pattern m12 m13 matter n p H1 H2 E) as (P1 & P2 & P3).
  assert (HIn : forall a, In a (map fst l) -> In a flavours) by (intros a; apply (Permutation_in _ HP)).
  apply (osc_change p n T e l i); auto.
  - apply (Permutation_NoDup (Permutation_sym HP)). repeat (apply NoDup_cons; [cbn; intuition discriminate|]). apply NoDup_nil.
  - intros A B HA HB. apply in_map_iff in HA, HB. destruct HA as (x & <- & Hx), HB as (y & <- & Hy). apply P1; apply HIn; [exact (in_map fst _ _ Hx)|exact (in_map fst _ _ Hy)].
  - intros b Hb j Hj. rewrite (sumR_perm _ _ _ HP). cbn [flavours sumR]. apply HIn in Hb. rewrite <- (P3 j Hj b Hb).
    assert (IE : In "electron"%string flavours /\ In "muon"%string flavours /\ In "tau"%string flavours) by (cbn; tauto). destruct IE as (I1 & I2 & I3).
    rewrite (proj1 (P2 j Hj "electron"%string _ I1 Hb)), (proj1 (P2 j Hj "muon"%string _ I2 Hb)), (proj1 (P2 j Hj "tau"%string _ I3 Hb)). ring.
Qed.
Print Assumptions C109_summed_change.

(* Without the condition that every flavour has left equilibrium the claim is
   false: the share of a flavour still in equilibrium is lost. *)
Definition wcfg : ParticleModel.config := ParticleModel.mkConfig 0 true 1 None None [1].
Definition wst (td c : R) : ParticleModel.state :=
  ParticleModel.mkState 1 1 td 0 [EvolveModel.Fin 1] [EvolveModel.Fin c] [] false [] 1 [] [] 0.
Definition wenv : ParticleModel.env := ParticleModel.mkEnv 1 0 1 1 1 1.
Definition wlist : list (string * ParticleModel.particle) :=
  [("electron"%string, (wcfg, wst (1 / 2) 0)); ("muon"%string, (wcfg, wst 2 1)); ("tau"%string, (wcfg, wst 2 0))].
Lemma wupd_eq name c m x : coll m = Ar [x] -> update_one wenv (with_coll (name, (wcfg, wst (1 / 2) c)) m) = Ok (wcfg, ParticleModel.set_coll [EvolveModel.Fin x] (wst (1 / 2) c)).
Proof.
  intros E. unfold with_coll. cbn [snd]. rewrite E. unfold update_one, ParticleModel.update_distribution, ParticleModel.in_equilibrium. cbn [ParticleModel.Tdec ParticleModel.sT ParticleModel.set_coll wst].
  destruct (Rlt_dec (1 / 2) 1); [reflexivity|lra].
Qed.
Lemma wupd_out name c m x : coll m = Ar [x] -> 0 <= x -> exists q', update_one wenv (with_coll (name, (wcfg, wst 2 c)) m) = Ok q' /\ ParticleModel.sdist (snd q') = [EvolveModel.Fin (1 + x * 1)].
Proof.
  intros E Hx. unfold with_coll. cbn [snd]. rewrite E. unfold update_one, ParticleModel.update_distribution, ParticleModel.in_equilibrium. cbn [ParticleModel.Tdec ParticleModel.sT ParticleModel.set_coll wst].
  destruct (Rlt_dec 2 1); [lra|]. cbn. eexists. split; [reflexivity|]. cbn. destruct (Rlt_dec _ 0); [lra|reflexivity].
Qed.
Theorem C109_partial_decoupling_refuted : exists p qs, oscillations_map None None false = Ok p /\ osc_update p 1 wenv wlist = Ok qs /\
  map (fun q => forallb (fun x => match x with EvolveModel.Fin r => true | _ => false end) (ParticleModel.sdist (snd q))) qs = [true; true; true] /\
  sumR (fval 0) qs <> sumR (fun fp => fval 0 (snd fp)) wlist + ParticleModel.eh wenv * sumR (fun fp => cval 0 (snd fp)) wlist.
Proof.
  set (w := prob EM th12_vac th13_vac).
  destruct (prob_rows th12_vac th13_vac) as (_ & R2 & _).
  destruct (prob_range EM th12_vac th13_vac) as [RE _]. destruct (prob_range MM th12_vac th13_vac) as [RM _]. destruct (prob_range MT th12_vac th13_vac) as [RT _].
  assert (HW : 0 < prob EM th12_vac th13_vac).
  { cbn [prob]. pose proof PI2_3_2. unfold th12_vac, th13_vac.
    assert (0 < cos (14715 / 100000)) by (apply cos_gt_0; lra). assert (0 < sin (2 * (57636 / 100000))) by (apply sin_gt_0; lra).
    apply Rmult_lt_0_compat; [apply Rmult_lt_0_compat; [lra|]|]; apply pow_lt; auto. }
  set (P := fun e => prob e th12_vac th13_vac) in *.
  assert (E : mix (pattern_of (Sc th12_vac) (Sc th13_vac)) 1 (map nu_of wlist) =
    Ok [mkNu "electron" (1 / 2) (Ar [0 + P EE * 0 + P EM * 1 + P ET * 0]); mkNu "muon" 2 (Ar [0 + P EM * 0 + P MM * 1 + P MT * 0]); mkNu "tau" 2 (Ar [0 + P ET * 0 + P MT * 1 + P TT * 0])]).
  { unfold mix. replace (existsb _ _) with true; [reflexivity|]. symmetry. apply existsb_exists. exists (nu_of ("tau"%string, (wcfg, wst 2 0))). split; [cbn; tauto|]. cbn. destruct (Rlt_dec 1 2); [reflexivity|lra]. }
  destruct (wupd_out "muon" 1 (mkNu "muon" 2 (Ar [0 + P EM * 0 + P MM * 1 + P MT * 0])) (0 + P EM * 0 + P MM * 1 + P MT * 0) eq_refl) as (q2 & E2 & S2); [unfold P; lra|].
  destruct (wupd_out "tau" 0 (mkNu "tau" 2 (Ar [0 + P ET * 0 + P MT * 1 + P TT * 0])) (0 + P ET * 0 + P MT * 1 + P TT * 0) eq_refl) as (q3 & E3 & S3); [unfold P; lra|].
  exists (pattern_of (Sc th12_vac) (Sc th13_vac)). eexists. split; [reflexivity|]. split.
  - unfold osc_update. replace (existsb _ _) with true.
    + rewrite E. cbn [rbind]. unfold wlist. cbn [combine each fst snd]. rewrite (wupd_eq "electron" 0 (mkNu "electron" (1 / 2) (Ar [0 + P EE * 0 + P EM * 1 + P ET * 0])) (0 + P EE * 0 + P EM * 1 + P ET * 0) eq_refl), E2, E3. cbn [rbind]. reflexivity.
    + symmetry. apply existsb_exists. exists ("tau"%string, (wcfg, wst 2 0)). split; [cbn; tauto|]. cbn. destruct (Rlt_dec 1 2); [reflexivity|lra].
  - split; [cbn [map]; rewrite S2, S3; reflexivity|]. unfold fval, cval. cbn [sumR]. rewrite S2, S3. unfold wlist. cbn [sumR snd nth fin_of ParticleModel.sdist ParticleModel.scoll wst ParticleModel.set_coll ParticleModel.eh wenv]. unfold P in *. lra.
Qed.
Print Assumptions C109_partial_decoupling_refuted.
Example C109_case : exists p, oscillations_map (Some (Sc 0)) (Some (Sc 0)) false = Ok p /\
  let l := [("tau"%string, (wcfg, wst 2 (1 / 2))); ("electron"%string, (wcfg, wst 2 0)); ("muon"%string, (wcfg, wst 2 1))] in
  Forall (fun fp => ready 1 (snd fp)) l /\ Permutation (map fst l) flavours.
Proof.
  eexists. split; [reflexivity|]. cbn zeta. split.
  - assert (RR : forall c, ready 1 (wcfg, wst 2 c)).
    { intros c. split; [reflexivity|]. split.
      - unfold ParticleModel.in_equilibrium. cbn. destruct (Rlt_dec 2 1); [lra|reflexivity].
      - split; [exists [1]|exists [c]]; split; reflexivity. }
    repeat (apply Forall_cons; [apply RR|]). apply Forall_nil.
  - cbn. apply perm_trans with ["electron"; "tau"; "muon"]%string; [apply perm_swap|]. apply perm_skip, perm_swap.
Qed.
