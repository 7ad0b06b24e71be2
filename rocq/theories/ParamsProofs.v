From Coq Require Import Reals Lra Psatz Permutation.
From Verif Require Import Base ParamsModel.
Open Scope R_scope.

Section Mode.
Variable logmode : bool.

(* ---------- constructor ---------- *)
Definition step_kw (kdx kdy : kw) : kw := if logmode then kdy else kdx.

Lemma init_ok_iff kT km kdx kdy :
  (exists p, params_init logmode kT km kdx kdy = Ok p) <->
  (exists T, kT = Val T /\ T <> 0) /\ km <> PNone /\ (exists s, step_kw kdx kdy = Val s /\ s <> 0).
Proof.
  unfold params_init, step_kw. split.
  - intros (p & H). destruct km as [| |m]; destruct kT as [| |T]; try discriminate;
      destruct (Req_EM_T T 0) as [->|HT]; try discriminate; cbn zeta in H;
      (split; [eauto|split; [discriminate|]]);
      destruct logmode; destruct kdy as [| |dy]; destruct kdx as [| |dx]; try discriminate;
      match type of H with
      | context [Req_EM_T ?s 0] => destruct (Req_EM_T s 0); [discriminate|eauto]
      | _ => idtac
      end.
  - intros ((T & -> & HT) & Hm & (s & Hs & Hs0)).
    destruct km as [| |m]; [|congruence|]; destruct (Req_EM_T T 0); try contradiction; cbn zeta;
      destruct logmode; subst; destruct (Req_EM_T s 0); try contradiction; eauto.
Qed.

Lemma init_no_T km kdx kdy kT : kT = Absent \/ kT = PNone ->
  params_init logmode kT km kdx kdy = Raise TypeError.
Proof. intros [->| ->]; unfold params_init; destruct km; reflexivity. Qed.

Lemma init_bad_step T km kdx kdy : step_kw kdx kdy = Absent \/ step_kw kdx kdy = Val 0 ->
  exists e, params_init logmode (Val T) km kdx kdy = Raise e.
Proof.
  unfold step_kw, params_init. intros H.
  destruct km as [| |m]; eauto; destruct (Req_EM_T T 0); eauto; cbn zeta;
  destruct logmode; destruct H as [->| ->]; try (destruct (Req_EM_T 0 0); [eauto|lra]); eauto.
Qed.

Lemma eV_pos : 0 < eV.
Proof. unfold eV. apply Rinv_0_lt_compat. apply pow_lt. lra. Qed.
Lemma MeV_pos : 0 < MeV.
Proof. unfold MeV. pose proof eV_pos. lra. Qed.
Lemma M_p_pos : 0 < M_p.
Proof.
  unfold M_p. pose proof MeV_pos. apply Rmult_lt_0_compat; [|lra].
  apply Rmult_lt_0_compat; [lra|]. apply pow_lt. lra.
Qed.
Lemma G_pos : 0 < G.
Proof. unfold G. pose proof M_p_pos. apply Rdiv_lt_0_compat; [lra|]. apply pow_lt. lra. Qed.

(* The well-formedness of a live state. *)
Definition Good (p : params) : Prop :=
  px p = pa p * pm p /\ pa p * pT p = paT p /\ 0 < pm p /\ 0 < pa p /\
  (logmode = true -> exists dy, pdy p = Some dy /\ pdx p = px p * dy /\ ph p = dy).

Lemma init_good T km kdx kdy p :
  params_init logmode (Val T) km kdx kdy = Ok p -> 0 < T ->
  (forall m, km = Val m -> 0 < m) ->
  Good p /\ pT p = T /\ pt p = 0 /\ pa p * T = pm p /\ paT p = pm p /\ px p = pm p ^ 2 / T /\
  (forall m, km = Val m -> pm p = m) /\ (km = Absent -> pm p = MeV) /\
  (logmode = true -> exists dy, kdy = Val dy /\ pdy p = Some dy) /\
  (logmode = false -> exists dx, kdx = Val dx /\ pdx p = dx).
Proof.
  intros H HT Hm. unfold params_init in H. pose proof MeV_pos as HM.
  destruct km as [| |m]; try discriminate;
    [set (m := 1 * MeV) in *; assert (Hmp : 0 < m) by (unfold m; lra)
    |assert (Hmp : 0 < m) by (now apply Hm)];
  destruct (Req_EM_T T 0); try discriminate; cbn zeta in H;
  (assert (Ha : 0 < 1 * m / T) by (apply Rdiv_lt_0_compat; lra));
  destruct logmode eqn:EL; destruct kdy as [| |dy]; destruct kdx as [| |dx]; try discriminate;
  match type of H with context [Req_EM_T ?s 0] => destruct (Req_EM_T s 0); [discriminate|] end;
  injection H as <-; unfold Good; cbn [px pa pm pT paT pdx pdy ph pt];
  repeat split; auto; try lra; try (intros; discriminate); try (intros; eexists; repeat split; eauto; fail);
  try (field; lra);
  try (intros m' E; injection E as <-; reflexivity); try (intros; unfold m; ring);
  try (intros; congruence).
Qed.

(* admissible driver operations: forward steps, positive density *)
Definition op_ok (p : params) (o : pop) : Prop :=
  match o with
  | MakeStep _ rho _ => 0 < rho /\ 0 < pdx p
  | SetAT _ rho _ => 0 < rho
  end.

Lemma step_good p o : Good p -> op_ok p o -> Good (pstep logmode p o) /\ pm (pstep logmode p o) = pm p.
Proof.
  intros (H1 & H2 & H3 & H4 & H5) Ho. split; [|destruct o; reflexivity].
  destruct o as [daT rho ent|aT rho ent]; cbn in Ho.
  - destruct Ho as [Hr Hd].
    assert (0 < px p) by (rewrite H1; apply Rmult_lt_0_compat; lra).
    assert (Ha : 0 < (px p + pdx p) / pm p) by (apply Rdiv_lt_0_compat; lra).
    unfold Good. cbn. repeat split; auto; try (field; lra).
    intros HL. destruct (H5 HL) as (dy & E1 & E2 & E3). exists dy. rewrite HL, E1. auto.
  - assert (0 < px p) by (rewrite H1; apply Rmult_lt_0_compat; lra).
    assert (Ha : 0 < px p / pm p) by (apply Rdiv_lt_0_compat; lra).
    unfold Good. cbn. repeat split; auto; try (field; lra).
    intros HL. destruct (H5 HL) as (dy & E1 & E2 & E3). exists dy. rewrite HL, E1. auto.
Qed.

(* positive step size is preserved *)
Definition Fwd (p : params) : Prop := 0 < pdx p /\ (logmode = true -> exists dy, pdy p = Some dy /\ 0 < dy).
Definition rho_of (o : pop) : R := match o with MakeStep _ r _ => r | SetAT _ r _ => r end.

Lemma step_fwd p o : Good p -> Fwd p -> 0 < rho_of o -> Fwd (pstep logmode p o).
Proof.
  intros HG (H1 & H2) Hr. destruct HG as (G1 & G2 & G3 & G4 & G5).
  assert (0 < px p) by (rewrite G1; apply Rmult_lt_0_compat; lra).
  destruct o as [daT rho ent|aT rho ent]; unfold Fwd; cbn; destruct logmode eqn:EL;
    try (split; [lra|intros; discriminate]);
    destruct (H2 eq_refl) as (dy & E & Hd); rewrite E; (split; [apply Rmult_lt_0_compat; lra|eauto]).
Qed.

Lemma run_good ops : forall p, Good p -> Fwd p -> Forall (fun o => 0 < rho_of o) ops ->
  Good (prun logmode p ops) /\ Fwd (prun logmode p ops) /\ pm (prun logmode p ops) = pm p.
Proof.
  unfold prun. induction ops as [|o ops IH]; intros p HG HF Hops; cbn [fold_left]; [auto|].
  inversion Hops; subst.
  assert (Hok : op_ok p o) by (destruct o; cbn in *; [split; [auto|apply HF]|auto]).
  destruct (step_good p o HG Hok) as [HG' Hm].
  destruct (IH (pstep logmode p o) HG' (step_fwd p o HG HF H1) H2) as (A & B & C).
  split; [exact A|]. split; [exact B|]. now rewrite C.
Qed.

(* ---------- monotonicity ---------- *)
Lemma H_pos rho : 0 < rho -> 0 < sqrt (8 / 3 * PI * rho) / M_p.
Proof.
  intros Hr. apply Rdiv_lt_0_compat; [|apply M_p_pos]. apply sqrt_lt_R0.
  pose proof PI_RGT_0. apply Rmult_lt_0_compat; [|lra]. lra.
Qed.

Lemma step_mono p daT rho ent : Good p -> Fwd p -> 0 < rho ->
  let p' := pstep logmode p (MakeStep daT rho ent) in
  pa p < pa p' /\ pt p < pt p' /\ pt p' - pt p = (1 - pa p / pa p') / pH p' /\
  pa p' = pa p * (1 + pdx p / px p) /\ px p' = px p + pdx p.
Proof.
  intros (G1 & G2 & G3 & G4 & G5) (F1 & F2) Hr. cbn zeta.
  assert (Hx : 0 < px p) by (rewrite G1; apply Rmult_lt_0_compat; lra).
  assert (HA : (px p + pdx p) / pm p = pa p + pdx p / pm p) by (rewrite G1; field; lra).
  assert (Hda : 0 < pdx p / pm p) by (apply Rdiv_lt_0_compat; lra).
  cbn -[sqrt PI M_p]. rewrite HA. split; [lra|].
  pose proof (H_pos rho Hr) as HH.
  assert (0 < 1 - pa p / (pa p + pdx p / pm p)).
  { replace (1 - pa p / (pa p + pdx p / pm p)) with ((pdx p / pm p) / (pa p + pdx p / pm p)) by (field; lra).
    apply Rdiv_lt_0_compat; lra. }
  split; [|split; [|split; [|reflexivity]]].
  - pose proof (Rdiv_lt_0_compat _ _ H HH). lra.
  - set (HHv := sqrt (8 / 3 * PI * rho) / M_p) in *. field. lra.
  - rewrite G1. field. lra.
Qed.

Lemma setat_same p aT rho ent : Good p ->
  let p' := pstep logmode p (SetAT aT rho ent) in
  pa p' = pa p /\ pt p' = pt p.
Proof.
  intros (G1 & G2 & G3 & G4 & G5). cbn -[sqrt PI M_p]. rewrite G1.
  replace (pa p * pm p / pm p) with (pa p) by (field; lra). split; [reflexivity|].
  replace (1 - pa p / pa p) with 0 by (field; lra). unfold Rdiv. rewrite !Rmult_0_l. ring.
Qed.

(* number of MakeStep operations *)
Definition nsteps (ops : list pop) : nat :=
  length (filter (fun o => match o with MakeStep _ _ _ => true | SetAT _ _ _ => false end) ops).

Lemma pdy_const p o : pdy (pstep logmode p o) = pdy p.
Proof. destruct o; reflexivity. Qed.

Lemma closed_log ops : logmode = true -> forall p dy, Good p -> Fwd p -> pdy p = Some dy ->
  Forall (fun o => 0 < rho_of o) ops ->
  pa (prun logmode p ops) = pa p * (1 + dy) ^ nsteps ops.
Proof.
  intros HL. unfold prun. induction ops as [|o ops IH]; intros p dy HG HF Hdy Hops; cbn [fold_left].
  - unfold nsteps; simpl; ring.
  - inversion Hops as [|? ? Ho Hops']; subst.
    assert (Hok : op_ok p o) by (destruct o; cbn in *; [split; [auto|apply HF]|auto]).
    destruct (step_good p o HG Hok) as [HG' Hm].
    rewrite (IH _ dy HG' (step_fwd p o HG HF Ho)); [|now rewrite pdy_const|exact Hops'].
    destruct o as [daT rho ent|aT rho ent].
    + destruct (step_mono p daT rho ent HG HF Ho) as (_ & _ & _ & E & _).
      rewrite E. destruct HG as (G1 & G2 & G3 & G4 & G5). destruct (G5 HL) as (dy' & E1 & E2 & _).
      rewrite Hdy in E1. injection E1 as <-. rewrite E2.
      unfold nsteps. cbn [filter length pow]. field.
      rewrite G1. apply Rgt_not_eq. apply Rmult_lt_0_compat; lra.
    + destruct (setat_same p aT rho ent HG) as [E _]. rewrite E. reflexivity.
Qed.

Lemma closed_lin ops : logmode = false -> forall p,
  px (prun logmode p ops) = px p + INR (nsteps ops) * pdx p /\ pdx (prun logmode p ops) = pdx p.
Proof.
  intros HL. unfold prun. induction ops as [|o ops IH]; intros p; cbn [fold_left].
  - unfold nsteps; simpl. lra.
  - destruct (IH (pstep logmode p o)) as [E1 E2]. rewrite E1, E2.
    destruct o as [daT rho ent|aT rho ent]; unfold nsteps; cbn [filter length]; cbn; rewrite HL; [|split; reflexivity].
    split; [|reflexivity]. fold (nsteps ops). destruct (nsteps ops); simpl; ring.
Qed.

(* ---------- Friedmann ---------- *)
Lemma friedmann p rho ent : 0 <= rho ->
  pH (params_update logmode p rho ent) ^ 2 = 8 * PI / 3 * G * rho /\ 0 <= pH (params_update logmode p rho ent).
Proof.
  intros Hr. cbn -[sqrt PI M_p pow]. pose proof M_p_pos as HM. pose proof PI_RGT_0 as HP.
  assert (0 <= 8 / 3 * PI * rho) by (apply Rmult_le_pos; [|lra]; lra).
  split.
  - unfold G. replace ((sqrt (8 / 3 * PI * rho) / M_p) ^ 2)
      with (sqrt (8 / 3 * PI * rho) * sqrt (8 / 3 * PI * rho) / M_p ^ 2) by (field; lra).
    rewrite sqrt_sqrt by lra. field. lra.
  - apply Rmult_le_pos; [apply sqrt_pos|]. left. now apply Rinv_0_lt_compat.
Qed.

Lemma friedmann_scaling p rho ent k : 0 < k -> 0 < rho ->
  let u r := params_update logmode p r ent in
  pH (u (k ^ 2 * rho)) = k * pH (u rho) /\
  pt (u (k ^ 2 * rho)) - pt p = (pt (u rho) - pt p) / k.
Proof.
  intros Hk Hr. cbn zeta. cbn -[sqrt PI M_p pow]. pose proof M_p_pos as HM. pose proof PI_RGT_0 as HP.
  assert (Hs : sqrt (8 / 3 * PI * (k ^ 2 * rho)) = k * sqrt (8 / 3 * PI * rho)).
  { replace (8 / 3 * PI * (k ^ 2 * rho)) with (k ^ 2 * (8 / 3 * PI * rho)) by ring.
    rewrite sqrt_mult; [|nra|]. - rewrite sqrt_pow2; lra. - apply Rmult_le_pos; [|lra]; lra. }
  rewrite Hs. pose proof (H_pos rho Hr) as HH.
  assert (sqrt (8 / 3 * PI * rho) <> 0).
  { intros E. rewrite E in HH. unfold Rdiv in HH. rewrite Rmult_0_l in HH. lra. }
  split; [unfold Rdiv; ring|].
  set (q := 1 - pa p / (px p / pm p)). field. lra.
Qed.

(* ---------- N_eff ---------- *)
Lemma neff_counts p (N ent : R) : 0 < pT p ->
  pNeff (params_update logmode p
    (rad_rho 2 false (pT p) + N * rad_rho 2 true (pT p / (1401 / 1000))) ent) = N.
Proof.
  intros HT. cbn -[PI pow]. unfold rad_rho. pose proof PI_RGT_0. field.
  repeat split; try lra.
Qed.

Lemma neff_affine p r1 r2 l ent :
  let n r := pNeff (params_update logmode p r ent) in
  n ((1 - l) * r1 + l * r2) = (1 - l) * n r1 + l * n r2.
Proof.
  cbn -[PI pow]. set (d := 7 / 8 * PI ^ 2 / 15 * (pT p / (1401 / 1000)) ^ 4).
  unfold Rdiv. ring.
Qed.

Lemma neff_incr p r1 r2 ent : pT p <> 0 -> r1 < r2 ->
  pNeff (params_update logmode p r1 ent) < pNeff (params_update logmode p r2 ent).
Proof.
  intros HT H. cbn -[PI pow]. pose proof PI_RGT_0.
  apply Rmult_lt_compat_r; [|lra]. apply Rinv_0_lt_compat.
  assert (0 < (pT p / (1401 / 1000)) ^ 4).
  { replace 4%nat with (2 * 2)%nat by reflexivity. rewrite pow_mult.
    apply pow_lt. rewrite <- Rsqr_pow2. apply Rsqr_pos_lt.
    intros E. apply HT. apply Rmult_integral in E. destruct E as [E|E]; [exact E|].
    exfalso. revert E. apply Rinv_neq_0_compat. lra. }
  assert (0 < PI ^ 2) by (apply pow_lt; lra).
  apply Rmult_lt_0_compat; [|exact H1]. lra.
Qed.
End Mode.

(* ---------- QCD ---------- *)
(* effective degrees of freedom, specified as a sum over the species that are
   relativistic and in equilibrium *)
Definition counted (T : R) (p : qpart) : Prop := qmass p < T /\ qineq p = true.

Lemma entropic_dof_perm T l l' : Permutation l l' -> entropic_dof T l = entropic_dof T l'.
Proof. induction 1; simpl; lra. Qed.

Lemma entropic_dof_app T l l' : entropic_dof T (l ++ l') = entropic_dof T l + entropic_dof T l'.
Proof. induction l as [|p l IH]; simpl; [ring|]. rewrite IH. ring. Qed.

Lemma Rpower_cube x : 0 < x -> Rpower x (1 / 3) ^ 3 = x.
Proof.
  intros Hx. rewrite <- Rpower_pow by (apply exp_pos). rewrite Rpower_mult.
  replace (1 / 3 * INR 3) with 1 by (simpl; field). now apply Rpower_1.
Qed.

Lemma rev_removelast_last (l : list R) a b : removelast (l ++ [a; b]) = l ++ [a].
Proof. replace (l ++ [a; b]) with ((l ++ [a]) ++ [b]) by (now rewrite <- app_assoc). apply removelast_last. Qed.

Lemma qcd_conserves orderer (Ho : forall l, Permutation (orderer l) l) T ps hist aTl dropped hadrons :
  let kept := filter (fun p => negb (existsb (String.eqb (qname p)) qcd_names)) ps in
  0 < entropic_dof T ps -> 0 < entropic_dof T (kept ++ hadrons) ->
  exists aT ps', qcd_aT orderer T ps (hist ++ [aTl; dropped]) (Some hadrons) = Ok (aT, ps', hist ++ [aTl]) /\
    entropic_dof T ps' * aT ^ 3 = entropic_dof T ps * aTl ^ 3 /\
    Permutation ps' (kept ++ hadrons).
Proof.
  cbn zeta. intros H1 H2. unfold qcd_aT. rewrite rev_removelast_last, rev_app_distr. cbn [rev app].
  set (ps' := orderer _).
  assert (HP : entropic_dof T ps' = entropic_dof T
     (filter (fun p => negb (existsb (String.eqb (qname p)) qcd_names)) ps ++ hadrons))
    by (apply entropic_dof_perm, Ho).
  destruct (Req_EM_T (entropic_dof T ps') 0) as [E|E]; [lra|].
  do 2 eexists. split; [reflexivity|]. split; [|apply Ho].
  rewrite Rpow_mult_distr, Rpower_cube; [field; lra|]. apply Rdiv_lt_0_compat; lra.
Qed.

Lemma qcd_no_hadrons orderer T ps hist : qcd_aT orderer T ps hist None = Raise TypeError.
Proof. reflexivity. Qed.

Lemma qcd_short orderer T ps hist hs : (length hist <= 1)%nat ->
  qcd_aT orderer T ps hist (Some hs) = Raise IndexError.
Proof.
  intros H. unfold qcd_aT. destruct hist as [|a [|b l]]; simpl in H; try lia; reflexivity.
Qed.

(* ---------- from the constructor ---------- *)
(* arguments of a usable constructor call: positive temperature, mass unit and
   step of the active mode *)
Definition args_ok (logmode : bool) (T : R) (km kdx kdy : kw) : Prop :=
  0 < T /\ (forall m, km = Val m -> 0 < m) /\ (forall s, step_kw logmode kdx kdy = Val s -> 0 < s).

Lemma init_fwd logmode T km kdx kdy p :
  params_init logmode (Val T) km kdx kdy = Ok p -> args_ok logmode T km kdx kdy ->
  Good logmode p /\ Fwd logmode p.
Proof.
  intros H (HT & Hm & Hs).
  destruct (init_good logmode T km kdx kdy p H HT Hm) as (HG & _ & _ & _ & _ & _ & _ & _ & HL & HN).
  split; [exact HG|]. unfold Fwd, step_kw in *. destruct logmode.
  - destruct (HL eq_refl) as (dy & -> & E). specialize (Hs dy eq_refl).
    destruct HG as (G1 & G2 & G3 & G4 & G5). destruct (G5 eq_refl) as (dy' & E1 & E2 & E3).
    rewrite E in E1. injection E1 as <-. split; [|eauto].
    rewrite E2, G1. apply Rmult_lt_0_compat; [|lra]. apply Rmult_lt_0_compat; lra.
  - destruct (HN eq_refl) as (dx & -> & E). specialize (Hs dx eq_refl). split; [lra|discriminate].
Qed.

Lemma run_invariants logmode T km kdx kdy p0 ops :
  params_init logmode (Val T) km kdx kdy = Ok p0 -> args_ok logmode T km kdx kdy ->
  Forall (fun o => 0 < rho_of o) ops ->
  let p := prun logmode p0 ops in
  px p = pa p * pm p /\ pa p * pT p = paT p /\ pm p = pm p0 /\ 0 < pa p.
Proof.
  intros H HA HO. destruct (init_fwd _ _ _ _ _ _ H HA) as [HG HF].
  destruct (run_good logmode ops p0 HG HF HO) as ((G1 & G2 & G3 & G4 & G5) & _ & Hm). auto.
Qed.

Lemma run_monotone logmode T km kdx kdy p0 ops daT rho ent :
  params_init logmode (Val T) km kdx kdy = Ok p0 -> args_ok logmode T km kdx kdy ->
  Forall (fun o => 0 < rho_of o) ops -> 0 < rho ->
  let p := prun logmode p0 ops in
  let p' := prun logmode p0 (ops ++ [MakeStep daT rho ent]) in
  pa p < pa p' /\ pt p < pt p' /\ pt p' - pt p = (1 - pa p / pa p') / pH p'.
Proof.
  intros H HA HO Hr. cbn zeta. destruct (init_fwd _ _ _ _ _ _ H HA) as [HG HF].
  destruct (run_good logmode ops p0 HG HF HO) as (HG' & HF' & _).
  unfold prun. rewrite fold_left_app. cbn [fold_left]. fold (prun logmode p0 ops).
  destruct (step_mono logmode _ daT rho ent HG' HF' Hr) as (A & B & C & _). auto.
Qed.

Lemma run_closed_log T km kdx dy p0 ops :
  params_init true (Val T) km kdx (Val dy) = Ok p0 -> args_ok true T km kdx (Val dy) ->
  Forall (fun o => 0 < rho_of o) ops ->
  pa (prun true p0 ops) = pm p0 / T * (1 + dy) ^ nsteps ops.
Proof.
  intros H HA HO. destruct (init_fwd _ _ _ _ _ _ H HA) as [HG HF].
  destruct HA as (HT & Hm & Hs).
  destruct (init_good _ _ _ _ _ _ H HT Hm) as (_ & _ & _ & Ea & _ & _ & _ & _ & HL & _).
  destruct (HL eq_refl) as (dy' & E & E'). injection E as <-.
  rewrite (closed_log true ops eq_refl p0 dy HG HF E' HO).
  replace (pa p0) with (pm p0 / T); [reflexivity|]. rewrite <- Ea. field. lra.
Qed.

Lemma run_closed_lin T km dx kdy p0 ops :
  params_init false (Val T) km (Val dx) kdy = Ok p0 -> args_ok false T km (Val dx) kdy ->
  px (prun false p0 ops) = pm p0 ^ 2 / T + INR (nsteps ops) * dx.
Proof.
  intros H (HT & Hm & Hs).
  destruct (init_good _ _ _ _ _ _ H HT Hm) as (_ & _ & _ & _ & _ & Ex & _ & _ & _ & HN).
  destruct (HN eq_refl) as (dx' & E & E'). injection E as <-.
  destruct (closed_lin false ops eq_refl p0) as [E1 _]. now rewrite E1, Ex, E'.
Qed.

Lemma params_example : exists p,
  params_init true (Val 10) (Val 1) Absent (Val (1/10)) = Ok p /\ args_ok true 10 (Val 1) Absent (Val (1/10)).
Proof.
  unfold params_init. destruct (Req_EM_T 10 0); [lra|]. cbn zeta.
  destruct (Req_EM_T (1/10) 0); [lra|]. eexists. split; [reflexivity|].
  unfold args_ok, step_kw. repeat split; try lra; intros ? E; injection E as <-; lra.
Qed.

Lemma qcd_example :
  let ps := [mkqpart "Gluon" 0 16 false true; mkqpart "Photon" 0 2 false true] in
  let hs := [mkqpart "Neutral pion" 1 1 false true] in
  let kept := filter (fun p => negb (existsb (String.eqb (qname p)) qcd_names)) ps in
  0 < entropic_dof 2 ps /\ 0 < entropic_dof 2 (kept ++ hs) /\ kept = [mkqpart "Photon" 0 2 false true].
Proof.
  cbn. repeat match goal with |- context [Rlt_dec ?a ?b] => destruct (Rlt_dec a b) end; repeat split; try lra.
Qed.

(* ---------- initial time ---------- *)
Lemma init_time_half_hubble rho : 0 < rho ->
  init_time rho = 1 / (2 * (sqrt (8 / 3 * PI * rho) / M_p)).
Proof.
  intros Hr. pose proof PI_RGT_0 as HPI.
  assert (HM : 0 < M_p) by (unfold M_p, MeV, eV; lra).
  unfold init_time, G.
  set (q := sqrt (8 / 3 * PI * rho)).
  assert (Hq : q * q = 8 / 3 * PI * rho) by (apply sqrt_sqrt; nra).
  assert (Hq0 : 0 < q) by (apply sqrt_lt_R0; nra).
  replace (3 / (32 * PI * (1 / M_p ^ 2) * rho)) with ((1 / (2 * (q / M_p))) * (1 / (2 * (q / M_p)))).
  - rewrite sqrt_square; [reflexivity|]. left. apply Rdiv_lt_0_compat; [lra|].
    apply Rmult_lt_0_compat; [lra|]. now apply Rdiv_lt_0_compat.
  - replace (1 / (2 * (q / M_p)) * (1 / (2 * (q / M_p)))) with (M_p ^ 2 / (4 * (q * q))) by (field; lra).
    rewrite Hq. field. repeat split; lra.
Qed.

Lemma init_time_age logmode p rho ent : 0 < rho ->
  let t := init_time rho in let H := pH (params_update logmode p rho ent) in
  0 < t /\ 2 * H * t = 1.
Proof.
  intros Hr. cbn zeta. assert (HH : pH (params_update logmode p rho ent) = sqrt (8 / 3 * PI * rho) / M_p) by reflexivity.
  rewrite HH, init_time_half_hubble by exact Hr.
  pose proof PI_RGT_0 as HPI. assert (HM : 0 < M_p) by (unfold M_p, MeV, eV; lra).
  assert (HX : 0 < sqrt (8 / 3 * PI * rho) / M_p).
  { apply Rdiv_lt_0_compat; [|exact HM]. apply sqrt_lt_R0. nra. }
  set (h := sqrt (8 / 3 * PI * rho) / M_p) in *. split.
  - apply Rdiv_lt_0_compat; lra.
  - field. lra.
Qed.
