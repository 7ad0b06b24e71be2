From Coq Require Import Reals Lra Psatz.
From Verif Require Import Base EvolveModel IntegratorsModel ParticleModel ParticleProofs.
Open Scope R_scope.

(* ---------- non-negative, NaN-free distributions ---------- *)
Definition good (x : xr) : Prop := match x with Fin r => 0 <= r | PInf => True | _ => False end.
Definition notnan (x : xr) : Prop := x <> NaN.
Lemma xmax0_good x : notnan x -> good (xmax0 x).
Proof. intros H. destruct x as [r| | |]; cbn; auto; [|lra]. destruct (Rlt_dec r 0); cbn; lra. Qed.
Lemma good_notnan x : good x -> notnan x.
Proof. intros H E. now rewrite E in H. Qed.
Lemma zip_notnan h : forall f c, Forall good f -> forallb isfinite c = true -> Forall notnan (zip2 (fun f x => xadd f (xscale h x)) f c).
Proof.
  induction f as [|x f IH]; intros [|y c] HF HC; cbn; constructor; inversion HF; subst; cbn in HC; apply andb_prop in HC; destruct HC as (C1 & C2).
  - destruct y; try discriminate. destruct x; cbn; intros E; try discriminate; contradiction.
  - auto.
Qed.
Lemma energy_nonneg c y m : 0 <= conformal_energy c y m.
Proof. unfold conformal_energy. destruct (Rlt_dec _ _); [apply sqrt_pos|apply Rabs_pos]. Qed.
Lemma eq_value_good c aT m y : 0 < aT -> -1 <= ceta c -> good (eq_value c aT m y).
Proof.
  intros HA HE. unfold eq_value. destruct (Req_EM_T aT 0); [lra|].
  assert (1 <= exp (conformal_energy c y m / aT)).
  { rewrite <- exp_0. destruct (Req_dec (conformal_energy c y m) 0) as [E|E]; [rewrite E; unfold Rdiv; rewrite Rmult_0_l; lra|].
    left. apply exp_increasing. apply Rmult_lt_0_compat; [pose proof (energy_nonneg c y m); lra|now apply Rinv_0_lt_compat]. }
  destruct (Req_EM_T _ 0) as [E|E]; [exact I|]. cbn. left. apply Rdiv_lt_0_compat; lra.
Qed.
Lemma init_good c e aT : 0 < aT -> -1 <= ceta c -> Forall good (init_distribution c e aT).
Proof.
  intros HA HE. unfold init_distribution. destruct (thermal_dyn c); apply Forall_forall; intros x Hx; apply in_map_iff in Hx; destruct Hx as (y & <- & _); [now apply eq_value_good|cbn; lra].
Qed.
Lemma zeros_good c : Forall good (zeros c).
Proof. apply Forall_forall. intros x Hx. apply in_map_iff in Hx. destruct Hx as (y & <- & _). cbn. lra. Qed.

Lemma map_xmax0_good l : Forall notnan l -> Forall good (map xmax0 l).
Proof. intros H. apply Forall_forall. intros x Hx. apply in_map_iff in Hx. destruct Hx as (y & <- & Hy). apply xmax0_good. rewrite Forall_forall in H. auto. Qed.
Lemma scale_good k x : 0 < k -> good x -> good (xscale k x).
Proof.
  intros HK H. destruct x as [r| | |]; cbn [xscale good] in *; try contradiction.
  - apply Rmult_le_pos; lra.
  - destruct (Req_EM_T k 0); [lra|]. destruct (Rlt_dec 0 k); [exact I|lra].
Qed.
Lemma dist_good e c s q o : Forall good (sdist s) -> (fast_decay c <> None -> 0 < saT s /\ -1 <= ceta c) -> update_distribution e (c, s) = (q, o) -> Forall good (sdist (snd q)).
Proof.
  intros HG HA. unfold update_distribution. destruct (in_equilibrium c s); [intros E; injection E as <- _; exact HG|].
  set (coll := map _ (scoll s)). destruct (forallb isfinite coll) eqn:EF; cbn [negb]; [|intros E; injection E as <- _; exact HG].
  destruct (fast_decay c) as [lt|] eqn:EL.
  - destruct (HA ltac:(discriminate)) as (A1 & A2). cbn [t_decoupling set_coll].
    assert (FG : forall td, Forall good (map xmax0 (map (fun y => xscale (exp (- (et e - td) / lt)) (eq_value c (saT s) (cmass c * saT s / Tdec s) y)) (template c)))).
    { intros td. apply map_xmax0_good, Forall_forall. intros x Hx. apply in_map_iff in Hx. destruct Hx as (y & <- & _). apply good_notnan, scale_good; [apply exp_pos|now apply eq_value_good]. }
    assert (ZG : Forall good (map xmax0 (zeros c))) by (apply map_xmax0_good; eapply Forall_impl; [|apply zeros_good]; exact good_notnan).
    destruct (Req_EM_T (t_decoupling s) 0); [destruct (nth_error _ 1)|]; cbn; try (intros E; injection E as <- _; exact HG); destruct (thermal_dyn c); intros E; injection E as <- _; cbn; auto.
  - intros E. injection E as <- _. cbn. apply map_xmax0_good. now apply zip_notnan.
Qed.

(* every history keeps the distribution good, if the plasma stays hot *)
Fixpoint hot (ops : list pop) : Prop :=
  match ops with [] => True | PUpdate e :: r => 0 < eaT e /\ hot r | _ :: r => hot r end.
Lemma good_forever dens integrate ops : forall c s q, -1 <= ceta c -> 0 < saT s -> Forall good (sdist s) -> hot ops ->
  prun dens integrate (c, s) ops = Ok q -> Forall good (sdist (snd q)).
Proof.
  unfold prun. induction ops as [|o ops IH]; intros c s q HC HA HG HH E.
  - cbn in E. injection E as <-. exact HG.
  - cbn [rfold] in E. destruct (pstep dens integrate (c, s) o) as [[c1 s1]|] eqn:E1; [|discriminate].
    assert (K : c1 = c /\ 0 < saT s1 /\ Forall good (sdist s1) /\ hot ops).
    { destruct o as [e|e i|e|e]; cbn [pstep] in E1; cbn [hot] in HH.
      - destruct HH as (H1 & H2). destruct (in_equilibrium c s) eqn:EQ.
        + destruct (update_eq dens e c s _ EQ E1) as (F1 & F2 & F3 & F4 & F5 & F6 & F7 & F8 & F9). cbn in *. split; auto. split; [lra|]. split; [|auto].
          destruct (in_equilibrium c s1); [rewrite (proj2 (F8 eq_refl))|rewrite (proj2 (F9 eq_refl))]; now apply init_good.
        + destruct (thermal_dyn c) eqn:HT.
          * destruct (update_noneq dens e c s _ HT EQ E1) as (F1 & F2 & F3 & F4 & F5 & F6 & _). cbn in *. rewrite F3, F6. auto.
          * unfold update in E1. rewrite EQ, HT in E1. destruct (charge c) as [qc|]; [|discriminate]. cbn in E1. injection E1 as <- <-. cbn. destruct (Req_EM_T qc 0); cbn; auto. repeat split; auto. now apply init_good.
      - destruct (pinit_effect e i (c, s)) as (l & EL). rewrite EL in E1. cbn [hd] in E1. injection E1 as <- <-. cbn. auto.
      - cbn [snd] in E1. destruct (cints s) eqn:EC; [injection E1 as <- <-; auto|]. unfold collide in E1. rewrite EC in E1.
        destruct (decayed s); [injection E1 as <- <-; cbn; auto|]. destruct (decay_condition c s e); [injection E1 as <- <-; cbn; repeat split; auto; apply zeros_good|].
        destruct (integrate c s (n :: l)); [|discriminate]. cbn in E1. injection E1 as <- <-. cbn. auto.
      - destruct (update_distribution e (c, s)) as [q0 [x|]] eqn:ED; [discriminate|]. injection E1 as ->.
        destruct (dist_effect e c s _ ED) as (F1 & F2 & F3 & F4 & F5 & F6). cbn in F1, F3. repeat split; auto; [lra|]. apply (dist_good e c s _ _ HG ltac:(auto) ED). }
    destruct K as (-> & K1 & K2 & K3). apply (IH c s1 q); auto.
Qed.

(* ---------- integrals collected per step ---------- *)
Lemma each_spec {A} (f : A -> result A) l : forall r, each f l = Ok r -> Forall2 (fun x y => f x = Ok y) l r.
Proof.
  induction l as [|x t IH]; intros r E; cbn in E; [injection E as <-; constructor|].
  destruct (f x) as [y|] eqn:E1; [|discriminate]. destruct (each f t) as [r'|] eqn:E2; [|discriminate]. cbn in E. injection E as <-. constructor; auto.
Qed.
Definition below (e : env) (p : particle) : bool := (if Rlt_dec (eT e) (Tdec (snd p)) then true else false) && negb (in_equilibrium (fst p) (snd p)).
Definition of_particle (k : nat) (l : list integral_ref) : list nat := map fst (filter (fun i => (snd i =? k)%nat) l).
Lemma init_at e refs : forall ps k, length (fold_left (initialize_one e) refs ps) = length ps /\ forall p, nth_error ps k = Some p ->
     nth_error (fold_left (initialize_one e) refs ps) k = Some (fst p, set_cints (cints (snd p) ++ (if below e p then of_particle k refs else [])) (snd p)).
Proof.
  induction refs as [|i refs IH]; intros ps k; cbn [fold_left].
  - split; [reflexivity|]. intros [c s] Hp. rewrite Hp. cbn [fst snd of_particle filter map]. destruct (below e (c, s)); unfold of_particle; cbn; rewrite app_nil_r; destruct s; reflexivity.
  - destruct (IH (initialize_one e ps i) k) as (L & H). split.
    { rewrite L. unfold initialize_one. destruct (nth_error ps (snd i)) as [[c s]|]; [|reflexivity]. destruct (_ && _); [apply set_nth_length|reflexivity]. }
    intros [c s] Hp. unfold of_particle in *. cbn [filter map].
    assert (HK : (k < length ps)%nat) by (apply nth_error_Some; congruence).
    destruct (Nat.eqb_spec (snd i) k) as [EK|EK].
    + assert (I1 : nth_error (initialize_one e ps i) k = Some (c, set_cints (cints s ++ (if below e (c, s) then [fst i] else [])) s)).
      { unfold initialize_one. rewrite EK, Hp. change ((if Rlt_dec (eT e) (Tdec s) then true else false) && negb (in_equilibrium c s)) with (below e (c, s)).
        destruct (below e (c, s)); [now apply nth_error_set_nth_eq|]. rewrite Hp, app_nil_r. destruct s; reflexivity. }
      rewrite (H _ I1). cbn [fst snd]. change (below e (c, set_cints (cints s ++ (if below e (c, s) then [fst i] else [])) s)) with (below e (c, s)). f_equal. f_equal.
      destruct (below e (c, s)); unfold set_cints; cbn; [|rewrite !app_nil_r; reflexivity]. now rewrite <- app_assoc.
    + assert (I1 : nth_error (initialize_one e ps i) k = Some (c, s)).
      { unfold initialize_one. destruct (nth_error ps (snd i)) as [[c' s']|]; [|exact Hp]. destruct (_ && _); [|exact Hp]. rewrite nth_error_set_nth_ne; auto. }
      rewrite (H _ I1). reflexivity.
Qed.

(* the oscillation block only replaces collision integrals *)
Definition only_coll (mix : list particle -> list particle) : Prop :=
  forall ps, Forall2 (fun p q => exists v, q = (fst p, set_coll v (snd p))) ps (mix ps).
Lemma Forall2_nth {A B} (P : A -> B -> Prop) l m : Forall2 P l m -> forall k y, nth_error m k = Some y -> exists x, nth_error l k = Some x /\ P x y.
Proof. induction 1 as [|a b l m H HF IH]; intros [|k] y E; try discriminate; cbn in *; [injection E as <-; eauto|auto]. Qed.
Lemma Forall2_nth_l {A B} (P : A -> B -> Prop) l m : Forall2 P l m -> forall k x, nth_error l k = Some x -> exists y, nth_error m k = Some y /\ P x y.
Proof. induction 1 as [|a b l m H HF IH]; intros [|k] y E; try discriminate; cbn in *; [injection E as <-; eauto|auto]. Qed.
Lemma update_cints dens e p q : update dens e p = Ok q -> cints (snd q) = cints (snd p).
Proof.
  destruct p as [c s]. unfold update. destruct (in_equilibrium c s) eqn:EQ; [|destruct (thermal_dyn c); [|destruct (charge c)]]; cbn; intros E; inversion E; clear E; cbn.
  - destruct (negb _); reflexivity.
  - reflexivity.
  - destruct (Req_EM_T r 0); reflexivity.
Qed.
Lemma collide_cints integrate e p q : collide integrate e p = Ok q -> cints (snd q) = cints (snd p).
Proof.
  destruct p as [c s]. unfold collide. destruct (cints s) eqn:EC; [intros E; injection E as <-; reflexivity|]. destruct (decayed s); [intros E; injection E as <-; reflexivity|].
  destruct (decay_condition c s e); [intros E; injection E as <-; reflexivity|]. destruct (integrate c s (n :: l)); [|discriminate]. cbn. intros E. injection E as <-. reflexivity.
Qed.
Lemma below_fields e c s s' : sT s' = sT s -> Tdec s' = Tdec s -> below e (c, s') = below e (c, s).
Proof. intros H1 H2. unfold below, in_equilibrium. cbn. now rewrite H1, H2. Qed.
Lemma dist_cints e c s q : update_distribution e (c, s) = (q, None) -> cints (snd q) = if in_equilibrium c s then cints s else [].
Proof.
  unfold update_distribution. destruct (in_equilibrium c s); [intros E; injection E as <-; reflexivity|]. destruct (negb _); [discriminate|]. destruct (fast_decay c).
  - cbn [t_decoupling set_coll]. destruct (Req_EM_T (t_decoupling s) 0); [destruct (nth_error _ 1); [|discriminate]|]; destruct (thermal_dyn c); intros E; injection E as <-; reflexivity.
  - intros E; injection E as <-; reflexivity.
Qed.
Definition cleared (ps : list particle) : Prop := forall k p, nth_error ps k = Some p -> cints (snd p) = [].

Lemma step_spec dens integrate mix e interactions ps used ps' : only_coll mix -> cleared ps -> step dens integrate mix e interactions ps = Ok (used, ps') ->
  cleared ps' /\ length ps' = length ps /\ length used = length ps /\
  forall k p', nth_error ps' k = Some p' -> nth_error used k = Some (if below e p' then of_particle k (concat interactions) else []).
Proof.
  intros HM HC. unfold step. destruct (each (update dens e) ps) as [ps1|] eqn:E1; [|discriminate]. cbn [rbind].
  set (ps2 := init_interactions e interactions ps1). destruct (calculate_collisions integrate e ps2) as [ps3|] eqn:E3; [|discriminate]. cbn [rbind].
  destruct (update_distributions mix e ps3) as [ps4|] eqn:E4; [|discriminate]. cbn [rbind]. intros E. injection E as <- <-.
  apply each_spec in E1. apply each_spec in E3. apply each_spec in E4.
  assert (L1 : length ps1 = length ps) by (symmetry; eapply Forall2_len; eauto).
  assert (L2 : length ps2 = length ps1) by apply (proj1 (init_at e (concat interactions) ps1 0%nat)).
  assert (L3 : length ps3 = length ps2) by (symmetry; eapply Forall2_len; eauto).
  assert (L4 : length ps4 = length ps3) by (rewrite <- (Forall2_len _ _ _ E4); symmetry; exact (Forall2_len _ _ _ (HM ps3))).
  assert (K : forall k p', nth_error ps4 k = Some p' -> cints (snd p') = [] /\ nth_error (map (fun p => cints (snd p)) ps2) k = Some (if below e p' then of_particle k (concat interactions) else [])).
  { intros k p' Hk. destruct (Forall2_nth _ _ _ E4 k p' Hk) as (pm & Hpm & D). destruct (Forall2_nth _ _ _ (HM ps3) k pm Hpm) as ([c3 s3] & H3 & v & ->). cbn [fst snd] in *.
    destruct (update_distribution e (c3, set_coll v s3)) as [q0 [x|]] eqn:ED; [discriminate|]. injection D as ->.
    destruct (Forall2_nth _ _ _ E3 k _ H3) as ([c2 s2] & H2 & D3). cbn [snd] in D3.
    assert (F : c3 = c2 /\ sT s3 = sT s2 /\ Tdec s3 = Tdec s2 /\ cints s3 = cints s2).
    { destruct (cints s2) eqn:EC2; [injection D3 as <- <-; auto|]. pose proof (collide_cints _ _ _ _ D3) as CC. destruct (collide_effect _ _ _ _ _ D3) as (G1 & G2 & _ & G4 & _). cbn in *. rewrite EC2 in CC. auto. }
    destruct F as (-> & F1 & F2 & F3).
    assert (H1 : exists p1, nth_error ps1 k = Some p1) by (destruct (nth_error ps1 k) eqn:X; [eauto|]; apply nth_error_None in X; assert (k < length ps2)%nat by (apply nth_error_Some; congruence); lia).
    destruct H1 as ([c1 s1] & H1). destruct (init_at e (concat interactions) ps1 k) as (_ & HI). specialize (HI _ H1). change (fold_left (initialize_one e) (concat interactions) ps1) with ps2 in HI.
    rewrite H2 in HI. cbn [fst snd] in HI. injection HI as -> ->.
    destruct (Forall2_nth _ _ _ E1 k _ H1) as (p & Hp & U). pose proof (update_cints _ _ _ _ U) as CU. cbn [snd] in CU. rewrite (HC _ _ Hp) in CU.
    destruct (dist_effect _ _ _ _ ED) as (G1 & G2 & _ & G4 & _). pose proof (dist_cints _ _ _ _ ED) as GC. cbn [sT Tdec cints set_coll set_cints snd] in *. rewrite CU in *. cbn [app] in *.
    destruct p' as [c' s']. cbn [fst snd] in *. subst c'.
    assert (B : below e (c1, s') = below e (c1, s1)) by (apply below_fields; congruence).
    split.
    - rewrite GC. destruct (in_equilibrium c1 (set_coll v s3)) eqn:EQ; [|reflexivity]. rewrite F3.
      assert (Z : below e (c1, s1) = false). { unfold below. cbn. assert (in_equilibrium c1 s1 = true) as ->; [|now rewrite Bool.andb_false_r]. unfold in_equilibrium in *. cbn in EQ. now rewrite F1, F2 in EQ. }
      now rewrite Z.
    - rewrite B. exact (map_nth_error (fun p : particle => cints (snd p)) k ps2 H2). }
  split; [intros k p' Hk; now apply K in Hk|]. split; [exact (eq_trans L4 (eq_trans L3 (eq_trans L2 L1)))|]. split; [rewrite map_length; exact (eq_trans L2 L1)|]. intros k p' Hk. now apply K in Hk.
Qed.

Lemma steps_spec dens integrate mix interactions : only_coll mix -> forall es ps useds ps', cleared ps -> steps dens integrate mix es interactions ps = Ok (useds, ps') ->
  cleared ps' /\ length useds = length es /\
  forall n used, nth_error useds n = Some used -> exists e psn, nth_error es n = Some e /\ steps dens integrate mix (firstn (S n) es) interactions ps = Ok (firstn (S n) useds, psn) /\
    length used = length ps /\ forall k p, nth_error psn k = Some p -> nth_error used k = Some (if below e p then of_particle k (concat interactions) else []).
Proof.
  intros HM. induction es as [|e es IH]; intros ps useds ps' HC E; cbn [steps] in E.
  - injection E as <- <-. split; [exact HC|]. split; [reflexivity|]. intros [|n] used H; discriminate.
  - destruct (step dens integrate mix e interactions ps) as [[used0 ps1]|] eqn:E1; [|discriminate]. cbn [rbind snd fst] in E.
    destruct (steps dens integrate mix es interactions ps1) as [[useds0 ps2]|] eqn:E2; [|discriminate]. cbn [rbind snd fst] in E. injection E as <- <-.
    destruct (step_spec _ _ _ _ _ _ _ _ HM HC E1) as (C1 & L1 & L2 & K). destruct (IH ps1 useds0 ps2 C1 E2) as (C2 & L3 & K2).
    split; [exact C2|]. split; [cbn; lia|]. intros [|n] used H; cbn in H.
    + injection H as <-. exists e, ps1. split; [reflexivity|]. split; [cbn [firstn steps]; rewrite E1; reflexivity|]. split; [exact L2|exact K].
    + destruct (K2 n used H) as (e' & psn & H1 & H2 & H3 & H4). exists e', psn. split; [exact H1|]. split; [cbn [firstn steps] in *; rewrite E1; cbn [rbind snd fst]; rewrite H2; reflexivity|]. split; [lia|exact H4].
Qed.
