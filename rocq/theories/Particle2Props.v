(* Initial state of a particle, equilibrium values, special float values, and
   the exact condition for a species to count as decayed (C76, C77, C79, C105,
   C129). *)
From Coq Require Import Reals Lra Psatz.
From Verif Require Import Base EvolveModel IntegratorsModel ParticleModel ParticleProofs ParticleProofs2 ParticleProps.
Open Scope R_scope.

(* ---------- C79 ---------- *)
(* a species counts as decayed exactly when it is massive, has no fast_decay,
   has been evolved at least once, had a non-zero initial density d0, and its
   density is below d0 a_ini^3 10^-13 *)
Theorem C79_condition : forall c s e, decay_condition c s e = true <->
  exists d0 rest, densities s = d0 :: rest /\ (2 <= rows_f s)%nat /\ cmass c <> 0 /\ d0 <> 0 /\ sdensity s / d0 * 10 ^ 13 < ea_ini e ^ 3 /\ fast_decay c = None.
Proof.
  intros c s e. unfold decay_condition. destruct (densities s) as [|d0 rest]; [split; [discriminate|intros (? & ? & E & _); discriminate E]|].
  assert (T : forall x, x < / 10 ^ 10 * (ea_ini e / 10) ^ 3 <-> x * 10 ^ 13 < ea_ini e ^ 3).
  { intros x. assert (0 < 10 ^ 13) by (apply pow_lt; lra). replace (/ 10 ^ 10 * (ea_ini e / 10) ^ 3) with (ea_ini e ^ 3 / 10 ^ 13) by (field). 
    assert (E : ea_ini e ^ 3 = ea_ini e ^ 3 / 10 ^ 13 * 10 ^ 13) by (field). rewrite E at 2. split; intros; [now apply Rmult_lt_compat_r|]. eapply Rmult_lt_reg_r; eauto. }
  rewrite !Bool.andb_true_iff. split.
  - intros ((((H1 & H2) & H3) & H4) & H5). exists d0, rest. split; [reflexivity|]. apply Nat.ltb_lt in H1. destruct (Req_EM_T (cmass c) 0); [discriminate|]. destruct (Req_EM_T d0 0); [discriminate|].
    destruct (Rlt_dec _ _) as [L|]; [|discriminate]. destruct (fast_decay c); [discriminate|]. apply T in L. auto 8.
  - intros (d & r & E & H1 & H2 & H3 & H4 & H5). injection E as <- <-. rewrite H5. split; [|reflexivity]. destruct (Nat.ltb_spec 1 (rows_f s)); [|lia].
    destruct (Req_EM_T (cmass c) 0); [contradiction|]. destruct (Req_EM_T d0 0); [contradiction|]. destruct (Rlt_dec _ _) as [L|L]; [auto|]. exfalso. apply L, T, H4.
Qed.
Print Assumptions C79_condition.
(* in terms of the fraction r of particles that is left (density diluted by the
   expansion, n = r n0 (a_ini / a)^3): the flag is raised when r < a^3 / 10^13 *)
Theorem C79_remaining_fraction : forall c s e d0 rest r, densities s = d0 :: rest -> (2 <= rows_f s)%nat -> cmass c <> 0 -> d0 <> 0 -> fast_decay c = None ->
  0 < ea_ini e -> 0 < ea e -> sdensity s = r * d0 * (ea_ini e / ea e) ^ 3 -> (decay_condition c s e = true <-> r * 10 ^ 13 < ea e ^ 3).
Proof.
  intros c s e d0 rest r ED HR HM HD HF Hi Ha HS. rewrite C79_condition, HS.
  assert (P : 0 < ea e ^ 3) by (apply pow_lt; lra). assert (Q : 0 < ea_ini e ^ 3) by (apply pow_lt; lra).
  assert (E : r * d0 * (ea_ini e / ea e) ^ 3 / d0 * 10 ^ 13 = r * 10 ^ 13 / ea e ^ 3 * ea_ini e ^ 3) by (field; split; lra || auto).
  assert (X : r * 10 ^ 13 / ea e ^ 3 * ea_ini e ^ 3 < ea_ini e ^ 3 <-> r * 10 ^ 13 < ea e ^ 3).
  { set (w := r * 10 ^ 13) in *. split; intros H.
    - assert (H' : w / ea e ^ 3 < 1) by (apply (Rmult_lt_reg_r (ea_ini e ^ 3)); lra). apply (Rmult_lt_compat_r (ea e ^ 3)) in H'; [|exact P]. replace (w / ea e ^ 3 * ea e ^ 3) with w in H' by (field; lra). lra.
    - assert (H' : w / ea e ^ 3 < 1) by (apply (Rmult_lt_reg_r (ea e ^ 3)); [exact P|]; replace (w / ea e ^ 3 * ea e ^ 3) with w by (field; lra); lra). apply (Rmult_lt_compat_r (ea_ini e ^ 3)) in H'; lra. }
  split.
  - intros (d & t & E' & _ & _ & _ & H & _). rewrite ED in E'. injection E' as <- <-. rewrite E in H. now apply X.
  - intros H. exists d0, rest. rewrite E. repeat split; auto. now apply X.
Qed.
Print Assumptions C79_remaining_fraction.
(* so a particle that does not decay at all (r = 1) is removed as decayed once
   the scale factor exceeds 10^(13/3) *)
Theorem C79_stable_particle_refuted : exists integrate c s e d0 q, cmass c <> 0 /\ fast_decay c = None /\ densities s = [d0; d0 * (ea_ini e / ea e) ^ 3] /\ sdensity s = d0 * (ea_ini e / ea e) ^ 3 /\
  sdist s = [Fin (1 / 2)] /\ integrate c s (cints s) = Ok [Fin 0] /\ collide integrate e (c, s) = Ok q /\ sdist (snd q) = [Fin 0].
Proof.
  set (e := mkEnv 100000 1 1 1 1 1). set (c := mkConfig 1 true 1 (Some 0) None [1]).
  set (s := mkState (1 / 2) 1 1 0 [Fin (1 / 2)] [Fin 0] [7%nat] false [] 2 [0; 1] [1; 1 * (1 / 100000) ^ 3] (1 * (1 / 100000) ^ 3)).
  assert (D : decay_condition c s e = true).
  { apply (C79_remaining_fraction c s e 1 [1 * (1 / 100000) ^ 3] 1); cbn; try lra; try lia; reflexivity. }
  exists (fun _ _ _ => Ok [Fin 0]), c, s, e, 1. eexists. split; [cbn; lra|]. split; [reflexivity|]. split; [reflexivity|]. split; [reflexivity|]. split; [reflexivity|]. split; [reflexivity|].
  split; [unfold collide; cbn [cints decayed s]; fold s; rewrite D; reflexivity|]. reflexivity.
Qed.
Print Assumptions C79_stable_particle_refuted.

(* ---------- C76 ---------- *)
(* a freshly configured particle: temperatures are those of the universe; a
   non-thermal species without a decoupling temperature decouples at the
   initial one; one row is recorded; no collision integrals, not decayed *)
Theorem C76_fresh : forall dens e c td p, set_params dens e c td = Ok p ->
  fst p = c /\ saT (snd p) = eaT e /\ sT (snd p) = eaT e / ea e /\
  Tdec (snd p) = (if thermal_dyn c then td else if Req_EM_T td 0 then eT e else td) /\
  cints (snd p) = [] /\ decayed (snd p) = false /\ rows_f (snd p) = 1%nat /\ coll_hist (snd p) = [] /\
  ts (snd p) = [et e] /\ densities (snd p) = [sdensity (snd p)] /\ scoll (snd p) = map (fun _ => Fin 0) (template c) /\
  sdist (snd p) = init_distribution c e (eaT e) /\
  t_decoupling (snd p) = (if thermal_dyn c then if Rlt_dec td (eT e) then if Rlt_dec td (eaT e / ea e) then 0 else et e else 0 else 0).
Proof.
  intros dens e c td p E. unfold set_params, update in E. cbn beta iota zeta in E. unfold in_equilibrium in E. cbn [sT Tdec set_T set_aT set_dist saT] in E.
  destruct (thermal_dyn c) eqn:ET.
  - destruct (Rlt_dec td (eT e)); cbn [andb] in E.
    + cbn [rbind sT Tdec set_T set_aT set_dist saT andb negb] in E. destruct (Rlt_dec td (eaT e / ea e)); cbn [andb negb] in E; injection E as <-; cbn; repeat split; reflexivity.
    + cbn [rbind sT Tdec set_T set_aT set_dist saT andb negb] in E. injection E as <-. cbn. repeat split; reflexivity.
  - rewrite Bool.andb_false_r in E. destruct (charge c) as [qc|]; [|discriminate]. cbn [rbind] in E. destruct (Req_EM_T qc 0); cbn [andb] in E; injection E as <-; cbn; repeat split; reflexivity.
Qed.
Print Assumptions C76_fresh.
Example C76_fresh_case : exists p, set_params (fun _ _ _ => 1) (mkEnv 2 0 3 6 1 2) (mkConfig 1 false 1 (Some 0) None [1; 2]) 0 = Ok p /\ Tdec (snd p) = 3.
Proof.
  unfold set_params, update, in_equilibrium. cbn. destruct (Req_EM_T 0 0); [|contradiction]. rewrite Bool.andb_false_r. cbn. destruct (Req_EM_T 0 0); [|contradiction]. eexists. split; [reflexivity|]. reflexivity.
Qed.

(* ---------- C105 ---------- *)
(* the values stored for a species in equilibrium: conformal energy E and
   temperature aT > 0 *)
Theorem C105_equilibrium_value : forall c aT m y, 0 < aT ->
  (forall E, 0 < cmass c -> 0 <= E -> E * E = y * y + m * m -> exp (E / aT) + ceta c <> 0 -> eq_value c aT m y = Fin (/ (exp (E / aT) + ceta c))) /\
  (cmass c <= 0 -> exp (Rabs y / aT) + ceta c <> 0 -> eq_value c aT m y = Fin (/ (exp (Rabs y / aT) + ceta c))) /\
  (cmass c <= 0 -> y = 0 -> ceta c = -1 -> eq_value c aT m y = PInf).
Proof.
  intros c aT m y Ha. unfold eq_value, conformal_energy. destruct (Req_EM_T aT 0); [lra|]. repeat split.
  - intros E HM HE HQ HN. destruct (Rlt_dec 0 (cmass c)); [|lra].
    assert (ES : sqrt (y ^ 2 + m ^ 2) = E). { replace (y ^ 2 + m ^ 2) with (E * E) by lra. now apply sqrt_square. }
    rewrite ES. cbn zeta. destruct (Req_EM_T _ 0); [contradiction|]. f_equal. unfold Rdiv. ring.
  - intros HM HN. destruct (Rlt_dec 0 (cmass c)); [lra|]. cbn zeta. destruct (Req_EM_T _ 0); [contradiction|]. f_equal. unfold Rdiv. ring.
  - intros HM -> HC. destruct (Rlt_dec 0 (cmass c)); [lra|]. cbn zeta. rewrite Rabs_R0, HC. unfold Rdiv. rewrite Rmult_0_l, exp_0. destruct (Req_EM_T _ 0); [reflexivity|lra].
Qed.
Print Assumptions C105_equilibrium_value.
(* at zero temperature: nothing but, at zero energy, NaN *)
Theorem C105_zero_temperature : forall c m y, (conformal_energy c y m = 0 -> eq_value c 0 m y = NaN) /\ (conformal_energy c y m <> 0 -> eq_value c 0 m y = Fin 0).
Proof. intros c m y. unfold eq_value. destruct (Req_EM_T 0 0); [|contradiction]. cbn zeta. destruct (Req_EM_T _ 0); split; intros; congruence. Qed.
Print Assumptions C105_zero_temperature.
Example C105_value_case : 5 * 5 = 3 * 3 + 4 * 4 /\ exp (5 / 1) + 1 <> 0.
Proof. split; [lra|]. pose proof (exp_pos (5 / 1)). intros Z. lra. Qed.

(* ---------- C77 ---------- *)
(* values that are not finite numbers, with a collision term x: infinity stays,
   minus infinity becomes zero, NaN stays *)
Theorem C77_special_values : forall e c s q, in_equilibrium c s = false -> fast_decay c = None -> update_distribution e (c, s) = (q, None) ->
  forall k x i, nth_error (sdist s) k = Some x -> nth_error (scoll s) k = Some i ->
  (x = PInf -> nth_error (sdist (snd q)) k = Some PInf) /\ (x = NInf -> nth_error (sdist (snd q)) k = Some (Fin 0)) /\ (x = NaN -> nth_error (sdist (snd q)) k = Some NaN).
Proof.
  intros e c s q HE HF. unfold update_distribution. rewrite HE, HF. set (coll := map _ (scoll s)). destruct (forallb isfinite coll) eqn:EF; cbn [negb]; [|discriminate].
  intros E k x i Hx Hi. injection E as <-. cbn [snd sdist set_dist set_coll].
  assert (HC : exists r, nth_error coll k = Some (Fin r)).
  { unfold coll in *. rewrite nth_error_map, Hi. cbn [option_map]. assert (L := proj1 (forallb_forall _ _) EF (if isnan i then Fin 0 else i)). assert (In (if isnan i then Fin 0 else i) (map (fun x => if isnan x then Fin 0 else x) (scoll s))) as HIn.
    { apply in_map_iff. exists i. split; [reflexivity|]. eapply nth_error_In; eauto. }
    specialize (L HIn). destruct i; cbn in *; try discriminate; eauto. }
  destruct HC as (r & HC). assert (Z : forall (f : xr -> xr -> xr) l m k a b, nth_error l k = Some a -> nth_error m k = Some b -> nth_error (zip2 f l m) k = Some (f a b)).
  { clear. induction l as [|a0 l IH]; intros m k a b Ha Hb; [destruct k; discriminate|]. destruct m as [|b0 m]; [destruct k; discriminate|]. destruct k; cbn in *; [congruence|]. eauto. }
  assert (G := Z (fun f x => xadd f (xscale (eh e) x)) _ _ _ _ _ Hx HC). rewrite nth_error_map, G. cbn [option_map]. repeat split; intros ->; reflexivity.
Qed.
Print Assumptions C77_special_values.
Example C77_special_case : exists q, update_distribution (mkEnv 1 0 1 1 1 1) (mkConfig 0 true 1 None None [1; 2; 3], mkState (1 / 2) 1 1 0 [PInf; NInf; NaN] [Fin 1; NaN; Fin 0] [] false [] 1 [] [] 0) = (q, None) /\ sdist (snd q) = [PInf; Fin 0; NaN].
Proof. unfold update_distribution, in_equilibrium. cbn. destruct (Rlt_dec 1 (1 / 2)); [lra|]. cbn. eexists. split; reflexivity. Qed.
(* a species with fast_decay follows the decayed equilibrium distribution,
   value by value *)
Theorem C77_fast_decay_values : forall e c s q lifetime, in_equilibrium c s = false -> fast_decay c = Some lifetime -> thermal_dyn c = true -> t_decoupling s <> 0 -> update_distribution e (c, s) = (q, None) ->
  forall k y, nth_error (template c) k = Some y ->
  nth_error (sdist (snd q)) k = Some (match eq_value c (saT s) (cmass c * saT s / Tdec s) y with
    | Fin v => Fin (Rmax 0 (v * exp (- (et e - t_decoupling s) / lifetime))) | PInf => PInf | NInf => Fin 0 | NaN => NaN end).
Proof.
  intros e c s q lf HE HF HT HD. unfold update_distribution. rewrite HE, HF, HT. set (coll := map _ (scoll s)). destruct (forallb isfinite coll); cbn [negb]; [|discriminate].
  cbn [set_coll t_decoupling]. destruct (Req_EM_T (t_decoupling s) 0); [contradiction|]. intros E k y Hy. injection E as <-. cbn [snd sdist set_dist set_coll set_tdec saT Tdec].
  rewrite !nth_error_map, Hy. cbn [option_map]. f_equal. pose proof (exp_pos (- (et e - t_decoupling s) / lf)) as P. destruct (eq_value _ _ _ _) as [v| | |]; cbn [xscale xmax0].
  - unfold Rmax. destruct (Rlt_dec _ 0), (Rle_dec 0 _); try reflexivity; lra.
  - destruct (Req_EM_T _ 0); [lra|]. destruct (Rlt_dec 0 _); [reflexivity|lra].
  - destruct (Req_EM_T _ 0); [lra|]. destruct (Rlt_dec 0 _); [reflexivity|lra].
  - reflexivity.
Qed.
Print Assumptions C77_fast_decay_values.
(* it needs a decoupling time, or a second recorded row to take it from *)
Theorem C77_fast_decay_history : forall e c s lifetime, in_equilibrium c s = false -> fast_decay c = Some lifetime -> Forall (fun x => isfinite x = true) (scoll s) -> t_decoupling s = 0 ->
  (forall t0, (ts s = [] \/ ts s = [t0]) -> snd (update_distribution e (c, s)) = Some IndexError) /\
  (forall t0 t1 t2, ts s = t0 :: t1 :: t2 -> snd (update_distribution e (c, s)) = None /\ t_decoupling (snd (fst (update_distribution e (c, s)))) = t1).
Proof.
  intros e c s lf HE HF HC HD. unfold update_distribution. rewrite HE, HF. set (coll := map _ (scoll s)).
  assert (FF : forallb isfinite coll = true). { apply forallb_forall. intros x Hx. apply in_map_iff in Hx. destruct Hx as (i & <- & Hi). apply (proj1 (Forall_forall _ _) HC) in Hi. destruct i; try discriminate; reflexivity. }
  rewrite FF. cbn [negb set_coll t_decoupling ts]. destruct (Req_EM_T (t_decoupling s) 0); [|contradiction]. split.
  - intros t0 [->| ->]; reflexivity.
  - intros t0 t1 t2 ->. cbn [nth_error]. destruct (thermal_dyn c); split; reflexivity.
Qed.
Print Assumptions C77_fast_decay_history.

(* ---------- C129 ---------- *)
(* the constructor's defaults have no attribute Q, and a species that is not in
   thermal contact needs one *)
Theorem C129_default_attributes_refuted : forall dens e c td, thermal_dyn c = false -> charge c = None -> set_params dens e c td = Raise AttributeError.
Proof. intros dens e c td HT HC. unfold set_params, update, in_equilibrium. rewrite HT, HC. rewrite Bool.andb_false_r. reflexivity. Qed.
Print Assumptions C129_default_attributes_refuted.
Theorem C129_otherwise_constructed : forall dens e c td, thermal_dyn c = true \/ charge c <> None -> exists p, set_params dens e c td = Ok p.
Proof.
  intros dens e c td H. unfold set_params, update. cbn beta iota zeta. destruct (in_equilibrium c _) eqn:E; [eexists; reflexivity|]. destruct (thermal_dyn c) eqn:ET; [eexists; reflexivity|].
  destruct H as [H|H]; [discriminate|]. destruct (charge c); [eexists; reflexivity|contradiction].
Qed.
Print Assumptions C129_otherwise_constructed.
Example C129_case : thermal_dyn (mkConfig 0 false 1 None None [1]) = false /\ charge (mkConfig 0 false 1 None None [1]) = None.
Proof. split; reflexivity. Qed.
