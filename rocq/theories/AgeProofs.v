From Coq Require Import Reals Lra Psatz Lia.
From Coquelicot Require Import Coquelicot.
From Verif Require Import Base EvolveModel IntegratorsModel ParamsModel ParamsProofs ThermoModel ThermoProofs AgeModel.
Open Scope R_scope.

Definition Hub (rho : R) : R := sqrt (8 / 3 * PI * rho) / M_p.
Lemma Mp_pos : 0 < M_p.
Proof. unfold M_p, MeV, eV. lra. Qed.
Lemma Hub_pos : forall rho, 0 < rho -> 0 < Hub rho.
Proof. intros rho H. pose proof PI_RGT_0. apply Rdiv_lt_0_compat; [apply sqrt_lt_R0; nra | apply Mp_pos]. Qed.
Lemma Hub_mono : forall r s, 0 <= r -> r <= s -> Hub r <= Hub s.
Proof.
  intros r s Hr H. unfold Hub. apply Rmult_le_compat_r; [left; apply Rinv_0_lt_compat, Mp_pos|]. apply sqrt_le_1_alt.
  pose proof PI_RGT_0. apply Rmult_le_compat_l; lra.
Qed.
Lemma Hub_scale : forall r k, 0 <= r -> 0 < k -> Hub (r * k ^ 4) = k ^ 2 * Hub r.
Proof.
  intros r k Hr Hk. unfold Hub. pose proof PI_RGT_0. replace (8 / 3 * PI * (r * k ^ 4)) with (8 / 3 * PI * r * (k ^ 2 * k ^ 2)) by ring.
  rewrite sqrt_mult by nra. rewrite sqrt_square by nra. unfold Rdiv. ring.
Qed.

Definition Rel (r : R) (p : params) : Prop := pdx p <= r * px p.

Lemma step_facts : forall logmode rho ent p d r, Good logmode p -> Fwd logmode p -> Rel r p -> 0 <= r -> 0 < rho p ->
  let p' := timed_step logmode rho ent p d in
  Good logmode p' /\ Fwd logmode p' /\ Rel r p' /\ 0 < pa p /\ pa p < pa p' /\ pa p' <= (1 + r) * pa p /\
  pt p' = pt p + (1 - pa p / pa p') / Hub (rho p).
Proof.
  intros logmode rho ent p d r G F Rr Hr Hp p'. pose proof G as (G1 & _ & G3 & G4 & G5). pose proof F as (F1 & F2).
  assert (HX : 0 < px p) by (rewrite G1; apply Rmult_lt_0_compat; lra).
  assert (EA : pa p' = (px p + pdx p) / pm p) by reflexivity.
  assert (E0 : pa p = px p / pm p) by (rewrite G1; field; lra).
  assert (Hi : 0 < / pm p) by (apply Rinv_0_lt_compat; lra).
  split; [apply step_good; [exact G | split; assumption]|]. split; [apply step_fwd; assumption|]. split.
  - unfold Rel, p', timed_step. cbn. destruct logmode; [|unfold Rel in Rr; nra].
    destruct (G5 eq_refl) as (dy & E1 & E2 & _). rewrite E1. unfold Rel in Rr. rewrite E2 in Rr.
    assert (dy <= r) by (apply (Rmult_le_reg_l (px p)); lra). rewrite (Rmult_comm r). apply Rmult_le_compat_l; lra.
  - split; [exact G4|]. split; [rewrite EA, E0; apply Rmult_lt_compat_r; lra|]. split; [|reflexivity].
    rewrite EA, E0. unfold Rdiv. rewrite <- Rmult_assoc. apply Rmult_le_compat_r; [lra|]. unfold Rel in Rr. lra.
Qed.

(* ---------- any universe ---------- *)
Definition timeslope (rhof : R -> R) (a : R) : R := / (a * Hub (rhof a)).
Lemma timeslope_cont : forall rhof a, 0 < a -> 0 < rhof a -> continuous rhof a -> continuous (timeslope rhof) a.
Proof.
  intros rhof a Ha Hr Hc. unfold timeslope. apply (continuous_comp (fun a => a * Hub (rhof a)) Rinv).
  - apply (continuous_mult (fun a => a) (fun a => Hub (rhof a))); [apply continuous_id|]. unfold Hub, Rdiv.
    apply (continuous_mult (fun a => sqrt (8 * / 3 * PI * rhof a)) (fun _ => / M_p)); [|apply continuous_const].
    apply (continuous_comp (fun a => 8 * / 3 * PI * rhof a) sqrt); [|apply continuous_sqrt].
    apply (continuous_mult (fun _ => 8 * / 3 * PI) rhof); [apply continuous_const | exact Hc].
  - apply continuous_Rinv. apply Rgt_not_eq, Rmult_lt_0_compat; [exact Ha | apply Hub_pos, Hr].
Qed.

Section history.
Variables (rhof : R -> R) (a0 : R).
Hypothesis Ha0 : 0 < a0.
Hypothesis Hpos : forall a, a0 <= a -> 0 < rhof a.
Hypothesis Hcont : forall a, a0 <= a -> continuous rhof a.
Hypothesis Hdec : forall a b, a0 <= a <= b -> rhof b <= rhof a.
Hypothesis Hrad : forall a b, a0 <= a <= b -> rhof a * a ^ 4 <= rhof b * b ^ 4.
Lemma slope_int : forall a b, a0 <= a <= b -> ex_RInt (timeslope rhof) a b.
Proof.
  intros a b H. apply (ex_RInt_continuous (V := R_CompleteNormedModule)). intros z Hz. rewrite Rmin_left, Rmax_right in Hz by lra.
  apply timeslope_cont; [lra | apply Hpos; lra | apply Hcont; lra].
Qed.
Lemma interval_bounds : forall a b, a0 <= a < b ->
  (1 - a / b) / Hub (rhof a) <= RInt (timeslope rhof) a b <= (b / a) ^ 3 * ((1 - a / b) / Hub (rhof a)).
Proof.
  intros a b H. pose proof (Hub_pos _ (Hpos a ltac:(lra))) as HA. pose proof (Hub_pos _ (Hpos b ltac:(lra))) as HB.
  assert (HU : (a / b) ^ 2 * Hub (rhof a) <= Hub (rhof b)).
  { rewrite <- Hub_scale by (try apply Rlt_le, Hpos; try apply Rdiv_lt_0_compat; lra). pose proof (Hpos a ltac:(lra)).
    assert (0 < (a / b) ^ 4) by (apply pow_lt, Rdiv_lt_0_compat; lra). apply Hub_mono; [apply Rlt_le, Rmult_lt_0_compat; assumption|].
    apply (Rmult_le_reg_r (b ^ 4)); [apply pow_lt; lra|]. replace (rhof a * (a / b) ^ 4 * b ^ 4) with (rhof a * a ^ 4) by (field; lra). apply Hrad. lra. }
  split.
  - replace ((1 - a / b) / Hub (rhof a)) with (RInt (fun _ => / (b * Hub (rhof a))) a b).
    2:{ rewrite RInt_const. unfold scal. cbn. unfold mult. cbn. field. split; lra. }
    apply RInt_le; [lra | apply ex_RInt_const | apply slope_int; lra|]. intros s Hs. unfold timeslope. pose proof (Hub_pos _ (Hpos s ltac:(lra))) as HS.
    apply Rinv_le_contravar; [apply Rmult_lt_0_compat; lra|]. apply Rmult_le_compat; try lra. apply Hub_mono; [left; apply Hpos; lra | apply Hdec; lra].
  - apply Rle_trans with (RInt (fun _ => / (a * ((a / b) ^ 2 * Hub (rhof a)))) a b).
    + apply RInt_le; [lra | apply slope_int; lra | apply ex_RInt_const|]. intros s Hs. unfold timeslope. pose proof (Hub_pos _ (Hpos s ltac:(lra))) as HS.
      assert (0 < a / b) by (apply Rdiv_lt_0_compat; lra). assert (0 < (a / b) ^ 2) by (apply pow_lt; assumption).
      apply Rinv_le_contravar; [apply Rmult_lt_0_compat; [lra | apply Rmult_lt_0_compat; assumption]|]. apply Rmult_le_compat; try lra; [apply Rmult_le_pos; lra|].
      eapply Rle_trans; [exact HU|]. apply Hub_mono; [left; apply Hpos; lra | apply Hdec; lra].
    + rewrite RInt_const. unfold scal. cbn. unfold mult. cbn. right. field. repeat split; lra.
Qed.
End history.

Lemma timed_bounds : forall logmode rho ent rhof r daTs p, Good logmode p -> Fwd logmode p -> Rel r p -> 0 <= r ->
  (forall q, pa p <= pa q -> rho q = rhof (pa q)) ->
  (forall a, pa p <= a -> 0 < rhof a) -> (forall a, pa p <= a -> continuous rhof a) ->
  (forall a b, pa p <= a <= b -> rhof b <= rhof a) -> (forall a b, pa p <= a <= b -> rhof a * a ^ 4 <= rhof b * b ^ 4) ->
  let q := timed_run logmode rho ent p daTs in
  pa p <= pa q /\ pt q - pt p <= RInt (timeslope rhof) (pa p) (pa q) <= (1 + r) ^ 3 * (pt q - pt p).
Proof.
  intros logmode rho ent rhof r. induction daTs as [|d ds IH]; intros p G F Rr Hr Hrho Hpos Hcont Hdec Hrad; cbn zeta.
  - change (timed_run logmode rho ent p []) with p. rewrite RInt_point. unfold zero. cbn. rewrite Rminus_eq_0. lra.
  - unfold timed_run. cbn [fold_left]. fold (timed_run logmode rho ent (timed_step logmode rho ent p d) ds).
    assert (HE : rho p = rhof (pa p)) by (apply Hrho; lra). assert (Hp : 0 < rho p) by (rewrite HE; apply Hpos; lra).
    destruct (step_facts logmode rho ent p d r G F Rr Hr Hp) as (G' & F' & R' & A0 & A1 & A2 & ET). set (p' := timed_step logmode rho ent p d) in *.
    assert (Q := IH p' G' F' R' Hr). cbn zeta in Q. destruct Q as (B1 & B2 & B3); try (intros; first [apply Hrho | apply Hpos | apply Hcont | apply Hdec | apply Hrad]; lra).
    set (q := timed_run logmode rho ent p' ds) in *. split; [lra|].
    assert (EC : RInt (timeslope rhof) (pa p) (pa q) = RInt (timeslope rhof) (pa p) (pa p') + RInt (timeslope rhof) (pa p') (pa q)).
    { symmetry. apply (RInt_Chasles (timeslope rhof)); apply (slope_int rhof (pa p)); try assumption; lra. }
    rewrite EC. pose proof (interval_bounds rhof (pa p) A0 Hpos Hcont Hdec Hrad (pa p) (pa p') ltac:(lra)) as (C1 & C2). rewrite <- HE in C1, C2.
    set (dt := (1 - pa p / pa p') / Hub (rho p)) in *.
    assert (Hdt : 0 <= dt).
    { apply Rle_mult_inv_pos; [|apply Hub_pos, Hp]. assert (pa p / pa p' <= 1); [|lra]. apply (Rmult_le_reg_r (pa p')); [lra|]. replace (pa p / pa p' * pa p') with (pa p) by (field; lra). lra. }
    assert (HP : (pa p' / pa p) ^ 3 <= (1 + r) ^ 3).
    { apply pow_incr. split; [apply Rlt_le, Rdiv_lt_0_compat; lra|]. apply (Rmult_le_reg_r (pa p)); [lra|]. replace (pa p' / pa p * pa p) with (pa p') by (field; lra). lra. }
    assert ((pa p' / pa p) ^ 3 * dt <= (1 + r) ^ 3 * dt) by (apply Rmult_le_compat_r; assumption).
    replace (pt q - pt p) with ((pt q - pt p') + dt) by (rewrite ET; ring). split; [lra|]. rewrite Rmult_plus_distr_l. lra.
Qed.

(* ---------- radiation ---------- *)
Lemma begin_facts : forall logmode rho ent p, Good logmode p -> Fwd logmode p -> 0 < rho ->
  let q := evolve_begin logmode rho ent p in
  Good logmode q /\ Fwd logmode q /\ pa q = pa p /\ paT q = paT p /\ pm q = pm p /\ px q = px p /\ pdx q = pdx p /\ pt q = init_time rho.
Proof.
  intros logmode rho ent p G F Hr. pose proof G as (G1 & G2 & G3 & G4 & G5). pose proof F as (F1 & F2).
  assert (G' : Good logmode (with_time p (init_time rho))) by exact G.
  assert (F' : Fwd logmode (with_time p (init_time rho))) by exact F.
  assert (EA : px p / pm p = pa p) by (rewrite G1; field; lra).
  change (evolve_begin logmode rho ent p) with (pstep logmode (with_time p (init_time rho)) (SetAT (paT p) rho ent)).
  split; [apply step_good; [exact G' | exact Hr]|]. split; [apply step_fwd; assumption|]. cbn. rewrite EA.
  split; [reflexivity|]. split; [reflexivity|]. split; [reflexivity|]. split; [reflexivity|]. split.
  - destruct logmode; [|reflexivity]. destruct (G5 eq_refl) as (dy & E1 & E2 & _). rewrite E1, E2. reflexivity.
  - replace (pa p / pa p) with 1 by (field; lra). unfold Rdiv. ring.
Qed.

Definition rho_rad (ps : list tpart) (T : R) : R := total (fun s => rad_energy_density s T) ps.
Lemma rho_rad_scale : forall ps T k, rho_rad ps (T * k) = rho_rad ps T * k ^ 4.
Proof. intros ps T k. unfold rho_rad. rewrite (total_scal (fun s => rad_energy_density s (T * k)) (fun s => rad_energy_density s T) (k ^ 4)); [ring|]. intros s. rewrite !rad_rho_eq. ring. Qed.
Lemma rho_rad_pos : forall ps T, rad_ok ps -> 0 < T -> 0 < rho_rad ps T.
Proof. intros ps T [HN HD] HT. apply total_pos; auto. eapply Forall_impl; [|exact HD]. cbn. intros s Hs. apply rad_rho_pos; auto. Qed.

(* age of the plasma at temperature T *)
Definition age (ps : list tpart) (T : R) : R := 1 / (2 * Hub (rho_rad ps T)).
Lemma age_scale : forall ps T k, rad_ok ps -> 0 < T -> 0 < k -> age ps (T / k) = k ^ 2 * age ps T.
Proof.
  intros ps T k HO HT Hk. unfold age. unfold Rdiv at 2. rewrite rho_rad_scale, Hub_scale by (try apply Rlt_le, rho_rad_pos; try apply Rinv_0_lt_compat; assumption).
  pose proof (Hub_pos _ (rho_rad_pos ps T HO HT)). field. lra.
Qed.

Lemma radiation_step_age : forall logmode ps p hist, rad_ok ps -> Good logmode p -> Fwd logmode p -> 0 < paT p -> Forall (fun x => x = 0) hist ->
  exists p', radiation_step logmode ps (p, hist) = Ok (p', hist ++ [0]) /\ Good logmode p' /\ Fwd logmode p' /\ paT p' = paT p /\ pa p < pa p' /\
    pa p' = pa p * (1 + pdx p / px p) /\ (forall r, 0 <= r -> Rel r p -> Rel r p') /\ prho p' = Some (rho_rad ps (pT p)) /\ pT p' = pT p * (pa p / pa p') /\
    pdx p' / px p' <= pdx p / px p /\ (logmode = true -> pdx p' / px p' = pdx p / px p) /\
    let u := pdx p / px p in pt p' - pt p = 2 / ((1 + u) * (2 + u)) * (age ps (pT p') - age ps (pT p)) /\ 0 < age ps (pT p') - age ps (pT p).
Proof.
  intros logmode ps p hist HO G F Ha HH. pose proof G as (G1 & G2 & G3 & G4 & G5). pose proof F as (F1 & F2).
  assert (HT : paT p / pa p = pT p) by (rewrite <- G2; field; lra).
  assert (HTp : 0 < pT p) by (rewrite <- HT; apply Rdiv_lt_0_compat; lra).
  pose proof (rho_rad_pos ps (pT p) HO HTp) as Hr.
  assert (HX : 0 < px p) by (rewrite G1; apply Rmult_lt_0_compat; lra).
  set (rho := fun p : params => total (fun s => rad_energy_density s (paT p / pa p)) ps). set (ent := fun p : params => total (fun s => rad_entropy s (paT p / pa p) (pT p)) ps).
  assert (HR : rho p = rho_rad ps (pT p)) by (unfold rho; rewrite HT; reflexivity).
  assert (Hr' : 0 < rho p) by (rewrite HR; exact Hr).
  assert (Hu : 0 < pdx p / px p) by (apply Rdiv_lt_0_compat; lra).
  assert (R0 : Rel (pdx p / px p) p) by (unfold Rel; right; field; lra).
  pose proof (step_facts logmode rho ent p 0 (pdx p / px p) G F R0 ltac:(lra) Hr') as SF. cbn zeta in SF. destruct SF as (G' & F' & _ & _ & A1 & _ & ET).
  assert (EA : pa (timed_step logmode rho ent p 0) = pa p * (1 + pdx p / px p)).
  { change (pa (timed_step logmode rho ent p 0)) with ((px p + pdx p) / pm p). rewrite G1. field. split; lra. }
  assert (EaT : paT (timed_step logmode rho ent p 0) = paT p) by (cbn; ring).
  assert (ETT : pT (timed_step logmode rho ent p 0) = pT p * (pa p / pa (timed_step logmode rho ent p 0))).
  { destruct G' as (_ & Q & _). rewrite <- HT. rewrite EaT in Q. rewrite <- Q. field. split; lra. }
  exists (timed_step logmode rho ent p 0). split; [exact (radiation_step_ok logmode ps p hist HO G F Ha HH)|].
  split; [exact G'|]. split; [exact F'|]. split; [exact EaT|]. split; [exact A1|]. split; [exact EA|].
  split; [intros r Hr0 Hrel; apply (step_facts logmode rho ent p 0 r G F Hrel Hr0 Hr')|].
  split; [rewrite <- HR; reflexivity|]. split; [exact ETT|].
  assert (EQX : logmode = true -> pdx (timed_step logmode rho ent p 0) / px (timed_step logmode rho ent p 0) = pdx p / px p).
  { intros HL. destruct (G5 HL) as (dy & E1 & E2 & _). unfold timed_step. cbn. rewrite HL, E1, E2. assert (0 < dy) by (rewrite E2 in F1; nra). field. split; nra. }
  split; [|split; [exact EQX|]].
  - destruct logmode eqn:EL; [right; apply EQX; reflexivity|]. unfold timed_step. cbn. unfold Rdiv. apply Rmult_le_compat_l; [lra|]. apply Rinv_le_contravar; lra.
  - cbn zeta. set (u := pdx p / px p) in *. set (p' := timed_step logmode rho ent p 0) in *.
    assert (EG : age ps (pT p') = (1 + u) ^ 2 * age ps (pT p)).
    { rewrite ETT, EA. replace (pT p * (pa p / (pa p * (1 + u)))) with (pT p / (1 + u)) by (field; lra). apply age_scale; try assumption; lra. }
    assert (HAge : 0 < age ps (pT p)). { unfold age. pose proof (Hub_pos _ Hr). apply Rdiv_lt_0_compat; lra. }
    rewrite EG. split; [|nra]. rewrite ET, HR, EA. pose proof (Hub_pos _ Hr). unfold age. field. lra.
Qed.

Lemma radiation_age : forall logmode ps p n, rad_ok ps -> Good logmode p -> Fwd logmode p -> 0 < paT p ->
  let u := pdx p / px p in
  exists q hist, radiation_run logmode ps n (p, [0]) = Ok (q, hist) /\ Forall (fun x => x = 0) hist /\ Good logmode q /\ Fwd logmode q /\ paT q = paT p /\ pa p <= pa q /\
    pdx q / px q <= u /\ (logmode = true -> pdx q / px q = u) /\
    2 / ((1 + u) * (2 + u)) * (age ps (pT q) - age ps (pT p)) <= pt q - pt p <= age ps (pT q) - age ps (pT p) /\
    ((0 < n)%nat -> pt q - pt p < age ps (pT q) - age ps (pT p)) /\
    (logmode = true -> pt q - pt p = 2 / ((1 + u) * (2 + u)) * (age ps (pT q) - age ps (pT p))).
Proof.
  intros logmode ps p n HO G F Ha u. induction n as [|n IH].
  - exists p, [0]. cbn [radiation_run]. split; [reflexivity|]. split; [auto|]. split; [exact G|]. split; [exact F|]. split; [reflexivity|]. split; [lra|].
    split; [unfold u; lra|]. split; [reflexivity|]. rewrite !Rminus_eq_0, Rmult_0_r. split; [lra|]. split; [lia | reflexivity].
  - destruct IH as (q & hist & E & H0 & Gq & Fq & Aq & Mq & Uq & ULq & Bq & _ & Lq).
    destruct (radiation_step_age logmode ps q hist HO Gq Fq ltac:(lra) H0) as (q' & E' & Gq' & Fq' & Aq' & Mq' & _ & _ & _ & _ & Uq' & ULq' & (T1 & T2)).
    exists q', (hist ++ [0]). cbn [radiation_run]. rewrite E. cbn [rbind]. split; [exact E'|]. split; [apply Forall_app; split; auto|].
    split; [exact Gq'|]. split; [exact Fq'|]. split; [lra|]. split; [lra|]. split; [lra|]. split; [intros HL; rewrite ULq', ULq; auto|].
    set (v := pdx q / px q) in *.
    assert (Hv : 0 < v). { unfold v. pose proof Fq as (K & _). pose proof Gq as (K1 & _ & K3 & K4 & _). apply Rdiv_lt_0_compat; [exact K|]. rewrite K1. apply Rmult_lt_0_compat; lra. }
    set (w := age ps (pT q') - age ps (pT q)) in *.
    assert (HF : 2 / ((1 + u) * (2 + u)) * w <= 2 / ((1 + v) * (2 + v)) * w).
    { apply Rmult_le_compat_r; [lra|]. unfold Rdiv. apply Rmult_le_compat_l; [lra|]. apply Rinv_le_contravar; nra. }
    assert (HG1 : 2 / ((1 + v) * (2 + v)) * w < w).
    { rewrite <- (Rmult_1_l w) at 2. apply Rmult_lt_compat_r; [lra|]. apply (Rmult_lt_reg_r ((1 + v) * (2 + v))); [nra|]. replace (2 / ((1 + v) * (2 + v)) * ((1 + v) * (2 + v))) with 2 by (field; lra). nra. }
    replace (age ps (pT q') - age ps (pT p)) with ((age ps (pT q) - age ps (pT p)) + w) by (unfold w; ring).
    replace (pt q' - pt p) with ((pt q - pt p) + (pt q' - pt q)) by ring. rewrite T1, Rmult_plus_distr_l. split; [lra|]. split; [intros _; lra|].
    intros HL. rewrite (Lq HL), (ULq HL : v = u). reflexivity.
Qed.
