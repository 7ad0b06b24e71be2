(* C38, C75-C79, C105. Specification: what an observer of one particle sees
   along arbitrary histories of driver calls (ParticleProofs.pop). *)
From Coq Require Import Reals Lra Psatz.
From Verif Require Import Base EvolveModel IntegratorsModel IntegratorsProofs ParticleModel ParticleProofs ParticleProofs2.
Open Scope R_scope.

(* ---------- C38 ---------- *)
Definition vanish (k : nat) (o : output) : Prop := match o with OFull C B => vec_at k C = 0 /\ vec_at k B = 0 | ODecay G => vec_at k G = 0 | OOther G => vec_at k G = 0 end.
Lemma AB_zero k outs : Forall (vanish k) outs -> AB_at k outs = 0 /\ B_at k outs = 0.
Proof.
  unfold AB_at, B_at. induction 1 as [|o l H HF (IH1 & IH2)]; [split; reflexivity|]. cbn [map fold_right]. rewrite IH1, IH2. destruct o; cbn in H; [destruct H|..]; split; lra.
Qed.
Lemma zipdot_zero bs : forall l, Forall (fun x => x = 0) l -> zipdot bs l = 0.
Proof. induction bs as [|b bs IH]; intros [|x l] H; cbn; try reflexivity. inversion H; subst. rewrite IH; auto. ring. Qed.
Lemma Forall_skipn {A} (P : A -> Prop) n : forall l, Forall P l -> Forall P (skipn n l).
Proof. induction n; intros l H; [exact H|]. destruct l; [constructor|]. inversion H; subst. cbn. auto. Qed.
Lemma solver_zero k outs y hist h : Forall (vanish k) outs -> Forall (fun x => x = 0) hist -> solver_at k outs y hist h = Ok y.
Proof.
  intros HO HH. unfold solver_at. destruct (AB_zero k outs HO) as (-> & ->).
  set (fs := py_suffix hist (- MAX_AM)).
  assert (HF : Forall (fun x => x = 0) fs) by (unfold fs, py_suffix; destruct (0 <=? - MAX_AM)%Z; now apply Forall_skipn).
  assert (HL : (length fs <= 5)%nat).
  { unfold fs, py_suffix, MAX_AM. destruct (Z.leb_spec 0 (- (5))); [lia|]. rewrite skipn_length. lia. }
  destruct (Nat.le_gt_cases (length fs) 4) as [L|L].
  - change (adams_moulton y fs) with (adams_moulton y ([] ++ fs)). rewrite am_default by (cbn [app]; lia).
    assert (HC : exists bs d, AM_coefficients (Z.of_nat (S (length fs))) = Some (bs, d))
      by (destruct (length fs) as [|[|[|[|[|n]]]]]; cbn; eauto; lia).
    destruct HC as (bs & d & HC). rewrite (am_value [] fs y 0 0 h (S (length fs)) bs d HC); [|cbn; lia|now right].
    rewrite zipdot_zero by (apply Forall_app; split; [exact HF|constructor; [reflexivity|constructor]]). f_equal. unfold Rdiv. rewrite !Rmult_0_r, !Rmult_0_l. field_simplify; try lra.
  - destruct fs as [|f0 l] eqn:EF; [cbn in L; lia|]. assert (length l = 4%nat) by (cbn in L, HL; lia). inversion HF; subst.
    change (0 :: l) with ([0] ++ l). rewrite am_default by (rewrite app_length; cbn [length]; lia).
    rewrite (am_value [0] l y 0 0 h (S (length l)) [-19; 106; -264; 646; 251] 720); [|now rewrite H|cbn; lia|left; lia].
    rewrite zipdot_zero by (apply Forall_app; split; [assumption|constructor; [reflexivity|constructor]]). f_equal. unfold Rdiv. rewrite !Rmult_0_r, !Rmult_0_l. field_simplify; try lra.
Qed.
(* the value used as the collision term is the distribution itself, so a
   vanishing collision integral multiplies it by 1 + h *)
Theorem C38_no_collisions_refuted : forall k outs f h hist, Forall (vanish k) outs -> Forall (fun x => x = 0) hist -> 0 < f -> 0 < h ->
  solver_at k outs f hist h = Ok f /\ xmax0 (xadd (Fin f) (xscale h (Fin f))) = Fin ((1 + h) * f) /\ (1 + h) * f <> f.
Proof.
  intros k outs f h hist HO HH Hf Hh. assert (0 < f * h) by (apply Rmult_lt_0_compat; lra). split; [now apply solver_zero|]. cbn. destruct (Rlt_dec (f + f * h) 0); [lra|]. split; [f_equal; ring|lra].
Qed.
Print Assumptions C38_no_collisions_refuted.
(* what holds: without any registered integral nothing changes *)
Theorem C38_no_integrals : forall dens integrate c s e e' q, thermal_dyn c = true -> in_equilibrium c s = false -> fast_decay c = None -> cints s = [] ->
  0 <= saT s -> saT s / ea e <= Tdec s -> Forall (fun x => match x with Fin r => 0 <= r | PInf => True | _ => False end) (sdist s) -> length (sdist s) = length (template c) ->
  prun dens integrate (c, s) [PUpdate e; PCollide e; PDist e'] = Ok q -> sdist (snd q) = sdist s.
Proof.
  intros dens integrate c s e e' q HT HE HF HC Ha Hd HG HL. unfold prun. cbn [rfold pstep]. destruct (update dens e (c, s)) as [[c1 s1]|] eqn:E1; [|discriminate].
  destruct (update_noneq dens e c s _ HT HE E1) as (F1 & F2 & F3 & F4 & F5 & F6 & F7 & F8 & _). cbn [fst snd] in *. subst c1. rewrite F8, HC.
  destruct (update_distribution e' (c, s1)) as [q0 [x|]] eqn:ED; [discriminate|]. intros E. injection E as <-.
  assert (NE : in_equilibrium c s1 = false) by (apply noneq_le; auto; rewrite F2, F4; exact Hd).
  unfold update_distribution in ED. rewrite NE, F7 in ED. unfold zeros in ED. rewrite map_map in ED. cbn [isnan] in ED.
  assert (FA : forallb isfinite (map (fun _ : R => Fin 0) (template c)) = true) by (clear; induction (template c) as [|y t IH]; [reflexivity|exact IH]).
  rewrite FA, HF in ED. cbn [negb] in ED. injection ED as <-. cbn. rewrite F6. clear - HG HL. revert HG HL. generalize (template c). induction (sdist s) as [|x l IH]; intros t HG HL; destruct t as [|y t]; try discriminate HL; [reflexivity|].
  cbn. inversion HG; subst. rewrite IH; auto. f_equal. destruct x as [r| | |]; try contradiction; cbn; [|reflexivity]. destruct (Rlt_dec _ 0); [lra|]. f_equal. ring.
Qed.
Print Assumptions C38_no_integrals.
Example C38_case : Forall (vanish 0) [OFull [0] [0]; ODecay [0]] /\ 0 < (1 : R) /\ solver_at 0 [OFull [0] [0]] 1 [0; 0] 2 = Ok 1.
Proof. split; [repeat constructor|]. split; [lra|]. apply solver_zero; repeat constructor. Qed.

(* ---------- C75 ---------- *)
Theorem C75_classification : forall g c s, 1 <= g -> 0 <= cmass c -> in_equilibrium c s = true ->
  (regime_of g c s = RADIATION <-> g * cmass c < sT s) /\ (regime_of g c s = DUST <-> g * sT s < cmass c) /\
  (regime_of g c s = INTERMEDIATE <-> ~ g * cmass c < sT s /\ ~ g * sT s < cmass c).
Proof. exact regime_classes. Qed.
Print Assumptions C75_classification.
Theorem C75_out_of_equilibrium : forall g c s, regime_of g c s = NONEQ <-> (thermal_dyn c = false \/ sT s <= Tdec s).
Proof.
  intros g c s. rewrite regime_noneq. unfold in_equilibrium. destruct (thermal_dyn c); destruct (Rlt_dec (Tdec s) (sT s)); cbn; split; intros H; try discriminate; try (now left); try (right; lra); try reflexivity.
  destruct H; [discriminate|lra].
Qed.
Print Assumptions C75_out_of_equilibrium.
Theorem C75_monotone : forall g c s s', 1 <= g -> 0 <= cmass c -> Tdec s' = Tdec s -> sT s' <= sT s ->
  (rank (regime_of g c s) <= rank (regime_of g c s'))%nat.
Proof. exact regime_monotone. Qed.
Print Assumptions C75_monotone.
Definition c0 := mkConfig 5 true 1 (Some 0) None [0; 1].
Definition s0 (T : R) := mkState T T 1 0 [Fin 0; Fin 0] [Fin 0; Fin 0] [] false [] 1 [] [] 0.
Example C75_case : regime_of 2 c0 (s0 11) = RADIATION /\ regime_of 2 c0 (s0 5) = INTERMEDIATE /\ regime_of 2 c0 (s0 2) = DUST /\ regime_of 2 c0 (s0 1) = NONEQ.
Proof. unfold regime_of, in_equilibrium. cbn. repeat split; repeat (match goal with |- context [Rlt_dec ?a ?b] => destruct (Rlt_dec a b) end; cbn; try lra); reflexivity. Qed.

(* ---------- C76 ---------- *)
Theorem C76_irreversible : forall dens integrate ops c s q a, thermal_dyn c = true -> 0 < a -> 0 <= saT s -> sT s = saT s / a -> in_equilibrium c s = false ->
  grows a ops -> prun dens integrate (c, s) ops = Ok q ->
  fst q = c /\ in_equilibrium c (snd q) = false /\ saT (snd q) = saT s /\ Tdec (snd q) = Tdec s /\ sT (snd q) <= sT s /\
  (fast_decay c = None \/ t_decoupling s <> 0 -> t_decoupling (snd q) = t_decoupling s).
Proof. exact decoupled_forever. Qed.
Print Assumptions C76_irreversible.
(* the update at which it happens; before it aT follows the plasma *)
Theorem C76_decoupling_update : forall dens e c s q, in_equilibrium c s = true -> update dens e (c, s) = Ok q ->
  saT (snd q) = eaT e /\ sT (snd q) = eaT e / ea e /\
  (in_equilibrium c (snd q) = true -> t_decoupling (snd q) = t_decoupling s) /\
  (in_equilibrium c (snd q) = false -> t_decoupling (snd q) = et e /\ sdist (snd q) = init_distribution c e (eaT e)).
Proof. intros dens e c s q HE E. destruct (update_eq dens e c s q HE E) as (F1 & F2 & F3 & F4 & F5 & F6 & F7 & F8 & F9). split; [exact F3|]. split; [exact F2|]. split; [intros X; now apply F8|intros X; now apply F9]. Qed.
Print Assumptions C76_decoupling_update.
Example C76_case : in_equilibrium c0 (s0 2) = true /\ in_equilibrium c0 (s0 1) = false /\ grows 1 [PUpdate (mkEnv 2 1 1 2 1 1); PDist (mkEnv 2 1 1 2 1 1); PUpdate (mkEnv 3 1 1 2 1 1)].
Proof. unfold in_equilibrium. cbn. repeat split; repeat (match goal with |- context [Rlt_dec ?a ?b] => destruct (Rlt_dec a b) end; cbn; try lra); try lra; reflexivity. Qed.

(* ---------- C77 ---------- *)
Theorem C77_equilibrium_untouched : forall e c s, in_equilibrium c s = true -> update_distribution e (c, s) = ((c, s), None).
Proof. intros e c s H. unfold update_distribution. now rewrite H. Qed.
Print Assumptions C77_equilibrium_untouched.
(* an infinite collision term raises and leaves the distribution alone *)
Theorem C77_infinite_rejected : forall e c s, in_equilibrium c s = false -> (In PInf (scoll s) \/ In NInf (scoll s)) ->
  exists q, update_distribution e (c, s) = (q, Some AssertionError) /\ sdist (snd q) = sdist s.
Proof.
  intros e c s HE HI. unfold update_distribution. rewrite HE. set (coll := map _ (scoll s)).
  assert (forallb isfinite coll = false) as ->; [|eexists; split; [reflexivity|reflexivity]].
  destruct (forallb isfinite coll) eqn:E; [|reflexivity]. rewrite forallb_forall in E.
  destruct HI as [H|H]; apply (in_map (fun x => if isnan x then Fin 0 else x)) in H; apply E in H; discriminate.
Qed.
Print Assumptions C77_infinite_rejected.
(* otherwise f becomes max(0, f + h I), NaN counting as 0 *)
Theorem C77_new_value : forall e c s, in_equilibrium c s = false -> fast_decay c = None -> ~ In PInf (scoll s) -> ~ In NInf (scoll s) ->
  exists q, update_distribution e (c, s) = (q, None) /\
  forall k f i, nth_error (sdist s) k = Some (Fin f) -> nth_error (scoll s) k = Some i ->
  nth_error (sdist (snd q)) k = Some (Fin (Rmax 0 (f + match i with Fin x => x * eh e | _ => 0 end))).
Proof.
  intros e c s HE HF HP HN. unfold update_distribution. rewrite HE. set (coll := map _ (scoll s)).
  assert (forallb isfinite coll = true) as ->.
  { apply forallb_forall. intros x Hx. apply in_map_iff in Hx. destruct Hx as (y & <- & Hy). destruct y; cbn; auto; contradiction. }
  rewrite HF. cbn [negb]. eexists. split; [reflexivity|]. cbn [snd sdist set_dist set_coll]. intros k f i Hf Hi.
  assert (HIn := nth_error_In _ _ Hi). unfold coll. clear -Hf Hi HIn HP HN. revert k Hf Hi. generalize (scoll s) at 1 2 as l. intros l. revert l. induction (sdist s) as [|x d IH]; intros l k Hf Hi; [destruct k; discriminate|].
  destruct l as [|y l]; [destruct k; discriminate|]. destruct k as [|k]; cbn in *.
  - injection Hf as ->. injection Hi as ->. f_equal. destruct i as [r| | |]; cbn; try contradiction; unfold Rmax; [set (z := f + r * eh e)|]; destruct (Rlt_dec _ 0); destruct (Rle_dec 0 _); f_equal; try lra; ring_simplify; lra.
  - apply IH; auto.
Qed.
Print Assumptions C77_new_value.
(* every history, from the constructor on, keeps it non-negative and NaN-free *)
Theorem C77_nonnegative_forever : forall dens integrate ops c e td q p, -1 <= ceta c -> 0 < eaT e -> set_params dens e c td = Ok p ->
  hot ops -> prun dens integrate p ops = Ok q -> Forall (fun x => match x with Fin r => 0 <= r | PInf => True | _ => False end) (sdist (snd q)).
Proof.
  intros dens integrate ops c e td q p HC HA. unfold set_params. set (s := mkState _ _ _ _ _ _ _ _ _ _ _ _ _). intros E HH ER.
  apply (good_forever dens integrate (PUpdate e :: ops) c s q); auto; [now apply init_good|cbn; auto|].
  unfold prun. cbn [rfold pstep]. rewrite E. exact ER.
Qed.
Print Assumptions C77_nonnegative_forever.
Example C77_case : exists c s, in_equilibrium c s = false /\ scoll s = [NaN; Fin (-7)] /\ exists q, update_distribution (mkEnv 1 1 1 1 1 1) (c, s) = (q, None) /\ sdist (snd q) = [Fin 3; Fin 0].
Proof.
  exists c0, (mkState 1 1 1 0 [Fin 3; Fin 5] [NaN; Fin (-7)] [] false [] 1 [] [] 0). unfold update_distribution, in_equilibrium. cbn. destruct (Rlt_dec 1 1); [lra|]. cbn.
  split; [reflexivity|]. split; [reflexivity|]. eexists. split; [reflexivity|]. cbn. destruct (Rlt_dec (3 + 0 * 1) 0); [lra|]. destruct (Rlt_dec (5 + -7 * 1) 0); [|lra]. repeat f_equal. ring.
Qed.

(* ---------- C78 ---------- *)
Theorem C78_counted_once : forall dens integrate mix interactions es ps useds ps', only_coll mix -> cleared ps -> steps dens integrate mix es interactions ps = Ok (useds, ps') ->
  cleared ps' /\ length useds = length es /\
  forall n used, nth_error useds n = Some used -> exists e psn, nth_error es n = Some e /\ steps dens integrate mix (firstn (S n) es) interactions ps = Ok (firstn (S n) useds, psn) /\
    length used = length ps /\ forall k p, nth_error psn k = Some p -> nth_error used k = Some (if below e p then of_particle k (concat interactions) else []).
Proof. intros dens integrate mix interactions es ps useds ps' HM. exact (steps_spec dens integrate mix interactions HM es ps useds ps'). Qed.
Print Assumptions C78_counted_once.
Theorem C78_eligibility : forall e p, below e p = true <-> eT e < Tdec (snd p) /\ (thermal_dyn (fst p) = false \/ sT (snd p) <= Tdec (snd p)).
Proof.
  intros e [c s]. unfold below, in_equilibrium. cbn. destruct (Rlt_dec (eT e) (Tdec s)), (Rlt_dec (Tdec s) (sT s)), (thermal_dyn c); cbn; split; intros H; try discriminate; try reflexivity; try (split; [assumption|]; auto; right; lra);
  destruct H as (H1 & [H|H]); try discriminate; lra.
Qed.
Print Assumptions C78_eligibility.
Definition cold (Td : R) := mkState 1 1 Td 0 [Fin 0; Fin 0] [Fin 0; Fin 0] [] false [] 1 [] [] 0.
Lemma eq_at Td : in_equilibrium c0 (cold Td) = if Rlt_dec Td 1 then true else false.
Proof. unfold in_equilibrium. cbn. now rewrite Bool.andb_true_r. Qed.
(* particle 0 decoupled at T = 1, particle 1 will decouple at 1/2 *)
Example C78_case : let e := mkEnv 1 1 (9 / 10) 1 1 1 in cleared [(c0, cold 1); (c0, cold (/ 2))] /\ only_coll (fun x => x) /\
  below e (c0, cold 1) = true /\ below e (c0, cold (/ 2)) = false /\ of_particle 0 (concat [[(7, 0); (8, 1)]; [(9, 0)]])%nat = [7; 9]%nat /\
  exists r, steps (fun _ _ _ => 0) (fun _ _ _ => Ok [Fin 1; Fin 1]) (fun x => x) [e] [[(7, 0)]; [(9, 0)]]%nat [(c0, cold 1)] = Ok r /\ fst r = [[[7; 9]]]%nat.
Proof.
  cbn zeta. split; [|split; [|split; [|split; [|split; [reflexivity|]]]]].
  - intros [|[|k]] p H; cbn in H; try (injection H as <-; reflexivity). destruct k; discriminate.
  - intros ps. induction ps as [|[c s] t IH]; constructor; auto. exists (scoll s). destruct s; reflexivity.
  - unfold below. cbn [fst snd]. rewrite eq_at. cbn. destruct (Rlt_dec (9 / 10) 1); [|lra]. destruct (Rlt_dec 1 1); [lra|reflexivity].
  - unfold below. cbn [fst snd]. rewrite eq_at. destruct (Rlt_dec (/ 2) 1); [|lra]. now rewrite Bool.andb_false_r.
  - eexists. cbn [steps]. unfold step. cbn [each]. unfold update. rewrite eq_at. destruct (Rlt_dec 1 1) as [X|X]; [lra|]. cbn [c0 thermal_dyn rbind andb snd fst].
    unfold init_interactions. cbn [concat app fold_left]. unfold initialize_one at 2. cbn [nth_error snd fst Tdec eT set_T set_coll in_equilibrium sT saT cold thermal_dyn c0 ea].
    unfold in_equilibrium at 1. cbn [Tdec sT thermal_dyn]. destruct (Rlt_dec (9 / 10) 1) as [Y|Y]; [|lra]. destruct (Rlt_dec 1 (1 / 1)) as [Z|Z]; [lra|]. cbn [andb negb set_nth].
    unfold initialize_one. cbn [nth_error snd fst Tdec eT set_cints sT thermal_dyn]. unfold in_equilibrium at 1. cbn [Tdec sT thermal_dyn]. destruct (Rlt_dec (9 / 10) 1); [|lra]. destruct (Rlt_dec 1 (1 / 1)); [lra|]. cbn [andb negb set_nth].
    unfold calculate_collisions. cbn. unfold decay_condition. cbn. unfold update_distributions. cbn. unfold update_distribution, in_equilibrium. cbn. repeat (match goal with |- context [Rlt_dec ?a ?b] => destruct (Rlt_dec a b) end; cbn; try (exfalso; lra)). split; reflexivity.
Qed.

(* ---------- C79 ---------- *)
Theorem C79_flagged : forall integrate c s e q, decay_condition c s e = true -> cints s <> [] -> decayed s = false -> collide integrate e (c, s) = Ok q ->
  decayed (snd q) = true /\ scoll (snd q) = zeros c /\ sdist (snd q) = zeros c.
Proof.
  intros integrate c s e q HD HC HF. unfold collide. destruct (cints s) eqn:EC; [contradiction|]. rewrite HF, HD. intros E. injection E as <-. auto.
Qed.
Print Assumptions C79_flagged.
Theorem C79_permanent : forall dens integrate ops c s q a, fast_decay c = None -> 0 < a -> 0 <= saT s -> (thermal_dyn c = true -> sT s = saT s / a) -> in_equilibrium c s = false ->
  decayed s = true -> scoll s = zeros c -> sdist s = zeros c -> grows a ops -> prun dens integrate (c, s) ops = Ok q ->
  decayed (snd q) = true /\ scoll (snd q) = zeros c /\ sdist (snd q) = zeros c.
Proof.
  intros dens integrate ops c s q a HF Ha HaT HTa HE H1 H2 H3 HG E. destruct (dead_forever dens integrate ops c s q a HF Ha HaT HTa HE) as (HD & <-); auto. repeat split; auto.
Qed.
Print Assumptions C79_permanent.
Theorem C79_flag_never_cleared : forall dens integrate ops p q, decayed (snd p) = true -> prun dens integrate p ops = Ok q -> decayed (snd q) = true.
Proof.
  intros dens integrate. unfold prun. induction ops as [|o ops IH]; intros [c s] q HD E; cbn [rfold] in E; [injection E as <-; exact HD|].
  destruct (pstep dens integrate (c, s) o) as [[c1 s1]|] eqn:E1; [|discriminate]. apply (IH (c1, s1) q); auto. clear IH E. cbn [snd] in *. destruct o as [e|e i|e|e]; cbn [pstep] in E1.
  - unfold update in E1. destruct (in_equilibrium c s); [|destruct (thermal_dyn c); [|destruct (charge c)]]; cbn in E1; inversion E1; clear E1; cbn; [destruct (negb _)| |destruct (Req_EM_T r 0)]; exact HD.
  - destruct (pinit_effect e i (c, s)) as (l & EL). rewrite EL in E1. cbn [hd] in E1. injection E1 as <- <-. exact HD.
  - cbn [snd] in E1. destruct (cints s); [injection E1 as <- <-; exact HD|]. destruct (collide_effect _ _ _ _ _ E1) as (_ & _ & _ & _ & _ & F). now apply F.
  - destruct (update_distribution e (c, s)) as [q0 [x|]] eqn:ED; [discriminate|]. injection E1 as ->. destruct (dist_effect _ _ _ _ ED) as (_ & _ & _ & _ & F & _). cbn in F. congruence.
Qed.
Print Assumptions C79_flag_never_cleared.
Example C79_case : exists c s e, decay_condition c s e = true /\ cints s <> [] /\ decayed s = false /\ in_equilibrium c s = false.
Proof.
  exists c0, (mkState 1 1 1 0 [Fin 3; Fin 5] [Fin 0; Fin 0] [4]%nat false [] 2 [] [1; 0] 0), (mkEnv 1 1 1 1 1 1).
  unfold decay_condition, in_equilibrium. cbn. destruct (Rlt_dec 1 1); [lra|]. destruct (Req_EM_T 5 0); [lra|]. destruct (Req_EM_T 1 0); [lra|]. destruct (Rlt_dec _ _) as [H|H]; [repeat split; discriminate|].
  exfalso. apply H. replace (0 / 1) with 0 by field. apply Rmult_lt_0_compat; [apply Rinv_0_lt_compat; lra|lra].
Qed.

(* ---------- C105 ---------- *)
(* the array stored by an equilibrium particle is the equilibrium distribution
   of the PREVIOUS aT, on the new conformal mass *)
Theorem C105_stored_distribution_lags : forall dens e c s q, in_equilibrium c s = true -> update dens e (c, s) = Ok q -> in_equilibrium c (snd q) = true ->
  sdist (snd q) = init_distribution c e (saT s).
Proof. intros dens e c s q HE E HE'. destruct (update_eq dens e c s q HE E) as (_ & _ & _ & _ & _ & _ & _ & F & _). now apply F. Qed.
Print Assumptions C105_stored_distribution_lags.
Theorem C105_current_temperature_refuted : exists dens e c s q, in_equilibrium c s = true /\ update dens e (c, s) = Ok q /\ in_equilibrium c (snd q) = true /\
  saT (snd q) = eaT e /\ sdist (snd q) <> init_distribution c e (eaT e).
Proof.
  set (s := mkState 3 3 1 0 [Fin 0; Fin 0] [Fin 0; Fin 0] [] false [] 1 [] [] 0). set (e := mkEnv 1 1 2 2 1 1). set (c := mkConfig 0 true 1 (Some 0) None [0; 1]).
  assert (HE : in_equilibrium c s = true) by (unfold in_equilibrium; cbn; destruct (Rlt_dec 1 3); [reflexivity|lra]).
  destruct (update (fun _ _ _ => 0) e (c, s)) as [q|] eqn:E; [|unfold update in E; rewrite HE in E; discriminate].
  destruct (update_eq _ _ _ _ _ HE E) as (F1 & F2 & F3 & F4 & _ & _ & _ & F8 & _).
  assert (HE' : in_equilibrium c (snd q) = true) by (unfold in_equilibrium; rewrite F2, F4; cbn; destruct (Rlt_dec 1 (2 / 1)); [reflexivity|lra]).
  exists (fun _ _ _ => 0), e, c, s, q. repeat split; auto. rewrite (proj2 (F8 HE')). unfold init_distribution. cbn. intros X. injection X as _ X. revert X.
  unfold eq_value, conformal_energy. cbn. destruct (Rlt_dec 0 0); [lra|]. rewrite Rabs_R1. destruct (Req_EM_T 3 0); [lra|]. destruct (Req_EM_T 2 0); [lra|].
  pose proof (exp_pos (1 / 3)). pose proof (exp_pos (1 / 2)). assert (exp (1 / 3) < exp (1 / 2)) by (apply exp_increasing; lra).
  destruct (Req_EM_T _ 0); [lra|]. destruct (Req_EM_T _ 0); [lra|]. intros X. injection X as X.
  assert (exp (1 / 3) + 1 = exp (1 / 2) + 1); [|lra]. rewrite <- (Rinv_inv (exp (1 / 3) + 1)), <- (Rinv_inv (exp (1 / 2) + 1)). f_equal. unfold Rdiv in X. lra.
Qed.
Print Assumptions C105_current_temperature_refuted.
