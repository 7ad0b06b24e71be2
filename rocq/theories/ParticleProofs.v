From Coq Require Import Reals Lra Psatz.
From Verif Require Import Base EvolveModel IntegratorsModel ParticleModel.
Open Scope R_scope.

(* ---------- regimes ---------- *)
Definition rank (r : regime) : nat := match r with RADIATION => 0 | INTERMEDIATE => 1 | DUST => 2 | NONEQ => 3 end.
Lemma regime_classes g c s : 1 <= g -> 0 <= cmass c -> in_equilibrium c s = true ->
  (regime_of g c s = RADIATION <-> g * cmass c < sT s) /\ (regime_of g c s = DUST <-> g * sT s < cmass c) /\
  (regime_of g c s = INTERMEDIATE <-> ~ g * cmass c < sT s /\ ~ g * sT s < cmass c).
Proof.
  intros Hg Hm HE. unfold regime_of. rewrite HE. cbn.
  assert (X : g * cmass c < sT s -> g * sT s < cmass c -> False) 
    by (intros A B; assert (0 <= (g - 1) * cmass c) by (apply Rmult_le_pos; lra); assert (0 <= (g - 1) * sT s) by (apply Rmult_le_pos; lra); lra).
  destruct (Rlt_dec (cmass c * g) (sT s)) as [A|A]; [|destruct (Rlt_dec (sT s * g) (cmass c)) as [B|B]].
  - split; [split; [intros _; lra|reflexivity]|]. split; [split; [discriminate|intros B; exfalso; apply X; lra]|]. split; [discriminate|intros (B & _); exfalso; lra].
  - split; [split; [discriminate|intros C; exfalso; lra]|]. split; [split; [intros _; lra|reflexivity]|]. split; [discriminate|intros (_ & C); exfalso; lra].
  - split; [split; [discriminate|intros C; exfalso; lra]|]. split; [split; [discriminate|intros C; exfalso; lra]|]. split; [intros _; split; lra|reflexivity].
Qed.
Lemma regime_noneq g c s : regime_of g c s = NONEQ <-> in_equilibrium c s = false.
Proof. unfold regime_of. destruct (in_equilibrium c s); cbn; [|tauto]. destruct (Rlt_dec _ _); [|destruct (Rlt_dec _ _)]; split; discriminate. Qed.
Lemma regime_monotone g c s s' : 1 <= g -> 0 <= cmass c -> Tdec s' = Tdec s -> sT s' <= sT s ->
  (rank (regime_of g c s) <= rank (regime_of g c s'))%nat.
Proof.
  intros Hg Hm HD HT. destruct (in_equilibrium c s') eqn:E'.
  - assert (E : in_equilibrium c s = true).
    { unfold in_equilibrium in *. rewrite HD in E'. destruct (thermal_dyn c); [|destruct (Rlt_dec (Tdec s) (sT s')); discriminate].
      destruct (Rlt_dec (Tdec s) (sT s')); [|discriminate]. destruct (Rlt_dec (Tdec s) (sT s)); [reflexivity|lra]. }
    unfold regime_of. rewrite E, E'. cbn.
    destruct (Rlt_dec (cmass c * g) (sT s')); [destruct (Rlt_dec (cmass c * g) (sT s)); [cbn; lia|lra]|].
    destruct (Rlt_dec (sT s' * g) (cmass c)); [destruct (Rlt_dec (cmass c * g) (sT s)); [cbn; lia|]; destruct (Rlt_dec (sT s * g) (cmass c)); cbn; lia|].
    destruct (Rlt_dec (cmass c * g) (sT s)); [cbn; lia|]. destruct (Rlt_dec (sT s * g) (cmass c)); [nra|cbn; lia].
  - rewrite (proj2 (regime_noneq g c s') E'). destruct (regime_of g c s); cbn; lia.
Qed.

(* ---------- histories ---------- *)
(* what the driver does to one particle, in any order *)
Inductive pop := PUpdate (e : env) | PInit (e : env) (i : nat) | PCollide (e : env) | PDist (e : env).
Definition pstep dens integrate (p : particle) (o : pop) : result particle :=
  match o with
  | PUpdate e => update dens e p
  | PInit e i => Ok (hd p (initialize_one e [p] (i, 0%nat)))
  | PCollide e => match cints (snd p) with [] => Ok p | _ => collide integrate e p end
  | PDist e => match update_distribution e p with (q, None) => Ok q | (_, Some x) => Raise x end
  end.
Definition prun dens integrate (p : particle) (ops : list pop) : result particle := rfold (pstep dens integrate) p ops.
(* the scale factors seen by the updates never decrease, starting from a *)
Fixpoint grows (a : R) (ops : list pop) : Prop :=
  match ops with
  | [] => True
  | PUpdate e :: r => a <= ea e /\ grows (ea e) r
  | _ :: r => grows a r
  end.

Lemma update_config dens e c s q : update dens e (c, s) = Ok q -> fst q = c.
Proof. unfold update. destruct (in_equilibrium c s); [|destruct (thermal_dyn c); [|destruct (charge c)]]; cbn; intros E; inversion E; reflexivity. Qed.

(* update of a particle that is out of equilibrium *)
Lemma update_noneq dens e c s q : thermal_dyn c = true -> in_equilibrium c s = false -> update dens e (c, s) = Ok q ->
  fst q = c /\ sT (snd q) = saT s / ea e /\ saT (snd q) = saT s /\ Tdec (snd q) = Tdec s /\ t_decoupling (snd q) = t_decoupling s /\
  sdist (snd q) = sdist s /\ scoll (snd q) = zeros c /\ cints (snd q) = cints s /\ decayed (snd q) = decayed s /\ coll_hist (snd q) = coll_hist s.
Proof. intros HT HE. unfold update. rewrite HE, HT. cbn. intros E. injection E as <-. cbn. repeat split. Qed.
Lemma update_eq dens e c s q : in_equilibrium c s = true -> update dens e (c, s) = Ok q ->
  fst q = c /\ sT (snd q) = eaT e / ea e /\ saT (snd q) = eaT e /\ Tdec (snd q) = Tdec s /\ scoll (snd q) = zeros c /\ cints (snd q) = cints s /\ decayed (snd q) = decayed s /\
  (in_equilibrium c (snd q) = true -> t_decoupling (snd q) = t_decoupling s /\ sdist (snd q) = init_distribution c e (saT s)) /\
  (in_equilibrium c (snd q) = false -> t_decoupling (snd q) = et e /\ sdist (snd q) = init_distribution c e (eaT e)).
Proof.
  intros HE. unfold update. rewrite HE. cbn [rbind andb].
  set (s1 := set_T (saT (set_aT (eaT e) (set_dist (init_distribution c e (saT s)) s)) / ea e) (set_aT (eaT e) (set_dist (init_distribution c e (saT s)) s))).
  intros E. injection E as <-.
  cbn [fst snd sT saT Tdec scoll cints decayed sdist t_decoupling set_coll].
  change (in_equilibrium c (mkState ?a ?b ?d ?e' ?f ?g ?h ?i ?j ?k ?l ?m ?n)) with ((if Rlt_dec d a then true else false) && thermal_dyn c).
  destruct (in_equilibrium c s1) eqn:E1; cbn [negb] in *.
  - do 7 (split; [reflexivity|]). split; [intros _; split; reflexivity|]. intros X. exfalso. unfold in_equilibrium in E1; cbn in E1, X; congruence.
  - do 7 (split; [reflexivity|]). split; [|intros _; split; reflexivity]. intros X. exfalso. unfold in_equilibrium in E1; cbn in E1, X; congruence.
Qed.

Lemma pinit_effect e i (p : particle) : exists l, initialize_one e [p] (i, 0%nat) = [(fst p, set_cints l (snd p))].
Proof.
  destruct p as [c s].
  unfold initialize_one. cbn. destruct (_ && _); [|exists (cints s); destruct s; reflexivity]. eexists. reflexivity.
Qed.
Lemma collide_effect integrate e c s q : collide integrate e (c, s) = Ok q -> fst q = c /\ sT (snd q) = sT s /\ saT (snd q) = saT s /\ Tdec (snd q) = Tdec s /\
  t_decoupling (snd q) = t_decoupling s /\ (decayed s = true -> decayed (snd q) = true /\ (scoll s = zeros c -> scoll (snd q) = zeros c) /\ sdist (snd q) = sdist s).
Proof.
  unfold collide. destruct (cints s) eqn:EC.
  - intros E. injection E as <-. cbn. repeat split; auto.
  - destruct (decayed s) eqn:ED.
    + intros E. injection E as <-. cbn. repeat split; auto.
    + destruct (decay_condition c s e).
      * intros E. injection E as <-. cbn. repeat split; auto; discriminate.
      * destruct (integrate c s (n :: l)); [|discriminate]. cbn. intros E. injection E as <-. cbn. repeat split; auto; discriminate.
Qed.
Lemma dist_effect e c s q : update_distribution e (c, s) = (q, None) -> fst q = c /\ sT (snd q) = sT s /\ saT (snd q) = saT s /\ Tdec (snd q) = Tdec s /\
  decayed (snd q) = decayed s /\ (fast_decay c = None \/ t_decoupling s <> 0 -> t_decoupling (snd q) = t_decoupling s).
Proof.
  unfold update_distribution. destruct (in_equilibrium c s); [intros E; injection E as <-; cbn; repeat split|].
  destruct (negb _); [discriminate|]. destruct (fast_decay c) as [lt|].
  - cbn [t_decoupling set_coll]. destruct (Req_EM_T (t_decoupling s) 0) as [Z|Z].
    + destruct (nth_error (ts (set_coll _ s)) 1); [|discriminate]. destruct (thermal_dyn c); intros E; injection E as <-; cbn; repeat split; intros [X|X]; discriminate || contradiction.
    + destruct (thermal_dyn c); intros E; injection E as <-; cbn; repeat split.
  - intros E. injection E as <-. cbn. repeat split.
Qed.

Lemma noneq_le c s : thermal_dyn c = true -> in_equilibrium c s = false <-> sT s <= Tdec s.
Proof. intros H. unfold in_equilibrium. rewrite H, Bool.andb_true_r. destruct (Rlt_dec (Tdec s) (sT s)); split; intros; try discriminate; try lra; reflexivity. Qed.

Lemma decoupled_forever dens integrate ops : forall c s q a, thermal_dyn c = true -> 0 < a -> 0 <= saT s -> sT s = saT s / a -> in_equilibrium c s = false ->
  grows a ops -> prun dens integrate (c, s) ops = Ok q ->
  fst q = c /\ in_equilibrium c (snd q) = false /\ saT (snd q) = saT s /\ Tdec (snd q) = Tdec s /\ sT (snd q) <= sT s /\
  (fast_decay c = None \/ t_decoupling s <> 0 -> t_decoupling (snd q) = t_decoupling s).
Proof.
  unfold prun. induction ops as [|o ops IH]; intros c s q a HT Ha HaT HTa HE HG E.
  - cbn in E. injection E as <-. cbn. repeat split; auto; lra.
  - cbn [rfold] in E. destruct (pstep dens integrate (c, s) o) as [[c1 s1]|] eqn:E1; [|discriminate].
    assert (K : c1 = c /\ saT s1 = saT s /\ Tdec s1 = Tdec s /\ (fast_decay c = None \/ t_decoupling s <> 0 -> t_decoupling s1 = t_decoupling s) /\
       exists a1, 0 < a1 /\ sT s1 = saT s1 / a1 /\ sT s1 <= sT s /\ grows a1 ops).
    { destruct o as [e|e i|e|e]; cbn [pstep] in E1; cbn [grows] in HG.
      - destruct HG as (G1 & G2). destruct (update_noneq dens e c s _ HT HE E1) as (F1 & F2 & F3 & F4 & F5 & _). cbn in *. repeat split; auto.
        exists (ea e). rewrite F3. repeat split; auto; [lra|]. rewrite F2, HTa. unfold Rdiv. apply Rmult_le_compat_l; [lra|]. apply Rinv_le_contravar; lra.
      - destruct (pinit_effect e i (c, s)) as (l & EL). rewrite EL in E1. cbn [hd] in E1. injection E1 as <- <-. cbn. repeat split; auto. exists a. repeat split; auto; lra.
      - cbn [snd] in E1. destruct (cints s) eqn:EC; [injection E1 as <- <-; repeat split; auto; exists a; repeat split; auto; lra|].
        destruct (collide_effect integrate e c s _ E1) as (F1 & F2 & F3 & F4 & F5 & _). cbn in *. repeat split; auto. exists a. rewrite F2, F3. repeat split; auto; lra.
      - destruct (update_distribution e (c, s)) as [q0 [x|]] eqn:ED; [discriminate|]. injection E1 as ->.
        destruct (dist_effect e c s _ ED) as (F1 & F2 & F3 & F4 & F5 & F6). cbn in *. repeat split; auto. exists a. rewrite F2, F3. repeat split; auto; lra. }
    destruct K as (-> & K1 & K2 & K3 & a1 & Ka & Kb & Kc & Kd).
    assert (HE1 : in_equilibrium c s1 = false) by (apply noneq_le; auto; rewrite K2; apply noneq_le in HE; auto; lra).
    destruct (IH c s1 q a1 HT Ka ltac:(lra) Kb HE1 Kd E) as (R1 & R2 & R3 & R4 & R5 & R6).
    repeat split; auto; try congruence; try lra.
    intros HF. rewrite R6; [auto|]. destruct HF as [HF|HF]; [now left|]. right. rewrite K3; auto.
Qed.

(* ---------- decayed particles ---------- *)
Definition dead (p : particle) : Prop := decayed (snd p) = true /\ scoll (snd p) = zeros (fst p) /\ sdist (snd p) = zeros (fst p).
Lemma zeros_update c e s : fast_decay c = None -> scoll s = zeros c -> sdist s = zeros c -> in_equilibrium c s = false ->
  exists q, update_distribution e (c, s) = (q, None) /\ sdist (snd q) = zeros c /\ scoll (snd q) = zeros c.
Proof.
  intros HF HS HD HE. unfold update_distribution. rewrite HE, HS. unfold zeros.
  assert (M : map (fun x => if isnan x then Fin 0 else x) (map (fun _ : R => Fin 0) (template c)) = map (fun _ => Fin 0) (template c)) by (rewrite map_map; reflexivity).
  rewrite M. assert (FA : forallb isfinite (map (fun _ : R => Fin 0) (template c)) = true) by (clear; induction (template c) as [|y t IH]; [reflexivity|exact IH]).
  rewrite FA, HF. cbn [negb]. eexists. split; [reflexivity|]. cbn. split; [|reflexivity]. rewrite HD. unfold zeros.
  clear. induction (template c) as [|y t IH]; [reflexivity|]. cbn. rewrite IH. f_equal. destruct (Rlt_dec _ 0); [reflexivity|]. f_equal. ring.
Qed.
Lemma dead_forever dens integrate ops : forall c s q a, fast_decay c = None -> 0 < a -> 0 <= saT s -> (thermal_dyn c = true -> sT s = saT s / a) -> in_equilibrium c s = false ->
  dead (c, s) -> grows a ops -> prun dens integrate (c, s) ops = Ok q -> dead q /\ fst q = c.
Proof.
  unfold prun. induction ops as [|o ops IH]; intros c s q a HF Ha HaT HTa HE HD HG E.
  - cbn in E. injection E as <-. auto.
  - cbn [rfold] in E. destruct (pstep dens integrate (c, s) o) as [[c1 s1]|] eqn:E1; [|discriminate]. destruct HD as (D1 & D2 & D3). cbn in D1, D2, D3.
    assert (K : c1 = c /\ dead (c, s1) /\ in_equilibrium c s1 = false /\ exists a1, 0 < a1 /\ (thermal_dyn c = true -> 0 <= saT s1 /\ sT s1 = saT s1 / a1) /\ grows a1 ops).
    { destruct o as [e|e i|e|e]; cbn [pstep] in E1; cbn [grows] in HG.
      - destruct HG as (G1 & G2). destruct (thermal_dyn c) eqn:HT.
        + destruct (update_noneq dens e c s _ HT HE E1) as (F1 & F2 & F3 & F4 & F5 & F6 & F7 & F8 & F9 & _). cbn in *. split; [auto|]. split; [repeat split; cbn; congruence|].
          split; [|exists (ea e); rewrite F3; repeat split; auto; lra].
          apply noneq_le; auto. apply noneq_le in HE; auto. rewrite F4, F2. apply Rle_trans with (sT s); [|auto]. rewrite HTa; auto. unfold Rdiv. apply Rmult_le_compat_l; [lra|]. apply Rinv_le_contravar; lra.
        + unfold update in E1. rewrite HE, HT in E1. destruct (charge c) as [qc|]; [|discriminate]. cbn in E1. injection E1 as <- <-. split; [reflexivity|].
          split; [|split; [unfold in_equilibrium; rewrite HT; now rewrite Bool.andb_false_r|exists (ea e); repeat split; auto; lra || discriminate]].
          unfold dead; cbn. destruct (Req_EM_T qc 0); cbn; auto. repeat split; auto. unfold init_distribution. now rewrite HT.
      - destruct (pinit_effect e i (c, s)) as (l & EL). rewrite EL in E1. cbn [hd] in E1. injection E1 as <- <-. split; [reflexivity|]. split; [repeat split; auto|]. split; [exact HE|]. exists a. repeat split; auto.
      - cbn [snd] in E1. destruct (cints s) eqn:EC; [injection E1 as <- <-; split; auto; split; [repeat split; auto|]; split; auto; exists a; repeat split; auto|].
        destruct (collide_effect integrate e c s _ E1) as (F1 & F2 & F3 & F4 & F5 & F6). destruct (F6 D1) as (X1 & X2 & X3). cbn in *. split; auto. split; [repeat split; cbn; auto; congruence|].
        split; [unfold in_equilibrium in *; now rewrite F4, F2|]. exists a. rewrite F2, F3. repeat split; auto.
      - destruct (zeros_update c e s HF D2 D3 HE) as (q0 & EQ & Z1 & Z2). rewrite EQ in E1. injection E1 as ->.
        destruct (dist_effect e c s _ EQ) as (F1 & F2 & F3 & F4 & F5 & F6). cbn in *. split; auto. split; [repeat split; cbn; auto; congruence|].
        split; [unfold in_equilibrium in *; now rewrite F4, F2|]. exists a. rewrite F2, F3. repeat split; auto. }
    destruct K as (-> & K1 & K2 & a1 & Ka & Kb & Kc). destruct (thermal_dyn c) eqn:HT.
    + destruct (Kb eq_refl) as (Kb1 & Kb2). apply (IH c s1 q a1); auto. 
    + (* aT plays no role for a non-thermal species *)
      clear IH Kb E1. revert s1 K1 K2 Kc E. clear -HF HT Ka. intros s1 K1 K2 Kc E. revert s1 a1 K1 K2 Ka Kc E. induction ops as [|o ops IH]; intros s1 a1 K1 K2 Ka Kc E.
      * cbn in E. injection E as <-. auto.
      * cbn [rfold] in E. destruct (pstep dens integrate (c, s1) o) as [[c2 s2]|] eqn:E1; [|discriminate]. destruct K1 as (D1 & D2 & D3). cbn in D1, D2, D3.
        assert (NE : forall s', in_equilibrium c s' = false) by (intros s'; unfold in_equilibrium; rewrite HT; now rewrite Bool.andb_false_r).
        assert (K : c2 = c /\ dead (c, s2)).
        { destruct o as [e|e i|e|e]; cbn [pstep] in E1.
          - unfold update in E1. rewrite K2, HT in E1. destruct (charge c) as [qc|]; [|discriminate]. cbn in E1. injection E1 as <- <-. split; [reflexivity|].
            unfold dead; cbn. destruct (Req_EM_T qc 0); cbn; auto. repeat split; auto. unfold init_distribution. now rewrite HT.
          - destruct (pinit_effect e i (c, s1)) as (l & EL). rewrite EL in E1. cbn [hd] in E1. injection E1 as <- <-. split; [reflexivity|]. repeat split; auto.
          - cbn [snd] in E1. destruct (cints s1) eqn:EC; [injection E1 as <- <-; split; auto; repeat split; auto|].
            destruct (collide_effect integrate e c s1 _ E1) as (F1 & F2 & F3 & F4 & F5 & F6). destruct (F6 D1) as (X1 & X2 & X3). cbn in *. split; auto. repeat split; cbn; auto; congruence.
          - destruct (zeros_update c e s1 HF D2 D3 K2) as (q0 & EQ & Z1 & Z2). rewrite EQ in E1. injection E1 as ->.
            destruct (dist_effect e c s1 _ EQ) as (F1 & F2 & F3 & F4 & F5 & F6). cbn in *. split; auto. repeat split; cbn; auto; congruence. }
        destruct K as (-> & K). destruct o as [e|e i|e|e]; cbn [grows] in Kc; [destruct Kc as (G1 & G2); apply (IH s2 (ea e)); auto; lra| | |]; apply (IH s2 a1); auto.
Qed.
