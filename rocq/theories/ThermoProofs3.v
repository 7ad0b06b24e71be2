From Coq Require Import Reals Lra Psatz.
From Coquelicot Require Import Coquelicot.
From Verif Require Import Base EvolveModel IntegratorsModel IntegratorsProofs ThermoModel ThermoProofs ThermoProofs2.
From Verif Require ParticleModel ParticleProofs.
Open Scope R_scope.

(* ---------- free streaming over any number of steps ---------- *)
(* One step of a particle that receives no integrals: update at the parameters
   e, then the distribution update at the parameters e'. *)
Definition free_ops (es : list (ParticleModel.env * ParticleModel.env)) : list ParticleProofs.pop :=
  concat (map (fun ee => [ParticleProofs.PUpdate (fst ee); ParticleProofs.PCollide (fst ee); ParticleProofs.PDist (snd ee)]) es).

Definition nonneg_dist (l : list xr) : Prop := Forall (fun x => match x with Fin r => 0 <= r | PInf => True | _ => False end) l.

Lemma zip_zeros l : forall (t : list R) h, nonneg_dist l -> length l = length t ->
  map ParticleModel.xmax0 (ParticleModel.zip2 (fun f x => ParticleModel.xadd f (ParticleModel.xscale h x)) l (map (fun _ => Fin 0) t)) = l.
Proof.
  unfold nonneg_dist. induction l as [|x l IH]; intros t h HG HL; destruct t as [|y t]; try discriminate HL; [reflexivity|].
  cbn. inversion HG; subst. rewrite IH; auto. f_equal. destruct x as [r| | |]; try contradiction; cbn; [|reflexivity]. destruct (Rlt_dec _ 0); [lra|]. f_equal. ring.
Qed.

Lemma free_streaming dens integrate es : forall c s q,
  ParticleModel.thermal_dyn c = true -> ParticleModel.in_equilibrium c s = false -> ParticleModel.fast_decay c = None -> ParticleModel.cints s = [] ->
  Forall (fun ee => ParticleModel.saT s / ParticleModel.ea (fst ee) <= ParticleModel.Tdec s) es ->
  nonneg_dist (ParticleModel.sdist s) -> length (ParticleModel.sdist s) = length (ParticleModel.template c) ->
  ParticleProofs.prun dens integrate (c, s) (free_ops es) = Ok q ->
  ParticleModel.sdist (snd q) = ParticleModel.sdist s.
Proof.
  induction es as [|[e e'] es IH]; intros c s q HT HE HF HC HA HG HL; [cbn; intros E; injection E as <-; reflexivity|].
  unfold ParticleProofs.prun. cbn [free_ops map concat app fst snd rfold ParticleProofs.pstep].
  destruct (ParticleModel.update dens e (c, s)) as [[c1 s1]|] eqn:E1; [|discriminate].
  destruct (ParticleProofs.update_noneq dens e c s _ HT HE E1) as (F1 & F2 & F3 & F4 & F5 & F6 & F7 & F8 & _). cbn [fst snd] in *. subst c1. rewrite F8, HC.
  destruct (ParticleModel.update_distribution e' (c, s1)) as [q0 [x|]] eqn:ED; [discriminate|]. intros E.
  inversion HA as [|? ? Hd HA']; subst. cbn [fst] in Hd.
  assert (NE : ParticleModel.in_equilibrium c s1 = false) by (apply ParticleProofs.noneq_le; auto; rewrite F2, F4; exact Hd).
  unfold ParticleModel.update_distribution in ED. rewrite NE, F7 in ED. unfold ParticleModel.zeros in ED. rewrite map_map in ED. cbn [ParticleModel.isnan] in ED.
  assert (FA : forallb ParticleModel.isfinite (map (fun _ : R => Fin 0) (ParticleModel.template c)) = true) by (clear; induction (ParticleModel.template c) as [|y t IH]; [reflexivity|exact IH]).
  rewrite FA, HF in ED. cbn [negb] in ED. injection ED as <-.
  match type of E with context [(c, ?st)] => set (s2 := st) in * end.
  assert (D2 : ParticleModel.sdist s2 = ParticleModel.sdist s) by (unfold s2; cbn; rewrite F6; now apply zip_zeros).
  fold (free_ops es) in E. specialize (IH c s2 q HT). rewrite <- D2. apply IH; auto.
  - unfold s2. rewrite D2 || idtac. cbn. rewrite F3, F4. exact HA'.
  - rewrite D2. exact HG.
  - rewrite D2. exact HL.
Qed.

(* ---------- sign of the denominators, used by the concrete cases ---------- *)
Lemma rule_sum_nonneg_on q f : Forall (fun nw => 0 <= f (fst nw) /\ 0 <= snd nw) q -> 0 <= rule_sum q f.
Proof. intros H. induction H as [|[y w] l [H1 H2] H IH]; cbn; [lra|]. fold (rule_sum l f). cbn in *. assert (0 <= f y * w) by now apply Rmult_le_pos. lra. Qed.

Lemma Int_nonneg q p n m aT : Forall (fun nw => 0 < fst nw /\ 0 <= snd nw) q -> 0 <= dof p -> 0 <= Int_legendre (rule_sum q) p n m aT.
Proof.
  intros HQ HD. unfold Int_legendre. pose proof PI_RGT_0. apply Rmult_le_pos.
  - apply Rmult_le_pos; [lra|]. apply Rlt_le, Rinv_0_lt_compat, pow_lt. lra.
  - apply rule_sum_nonneg_on. eapply Forall_impl; [|exact HQ]. intros [y w] [Hy Hw]. cbn in *. split; auto. unfold legendre_integrand.
    apply Rmult_le_pos; [apply Rmult_le_pos; [apply pow_le; lra|apply Rlt_le, exp_pos]|].
    set (z := (exp (cenergy p y m / aT) + eta p) ^ 2). change (0 <= / z). destruct (Req_dec z 0) as [->|Hz]; [rewrite Rinv_0; lra|].
    apply Rlt_le, Rinv_0_lt_compat. assert (0 <= z) by apply pow2_ge_0. lra.
Qed.

Definition dof_of (s : species) : R := match s with SRad p | SInt p | SNon p _ _ => dof p end.

Lemma D_nonneg q s a th : Forall (fun nw => 0 < fst nw /\ 0 <= snd nw) q -> 0 < dof_of s -> 0 < th -> 0 <= D_s q s a th.
Proof.
  intros HQ HD Ht. destruct s as [p|p|p f coll]; cbn in *; [apply Rlt_le; now apply rad_den_pos| |unfold noneq_denominator; lra].
  unfold int_denominator. apply Rmult_le_pos; [|apply Rlt_le, Rinv_0_lt_compat, pow_lt; lra].
  apply Rplus_le_le_0_compat; [apply Int_nonneg; auto; lra|]. apply Rmult_le_pos; [apply pow2_ge_0|apply Int_nonneg; auto; lra].
Qed.

Lemma total_D_pos q p ss a th : Forall (fun nw => 0 < fst nw /\ 0 <= snd nw) q -> 0 < th -> 0 < dof p -> Forall (fun s => 0 < dof_of s) ss ->
  0 < total (fun s => D_s q s a th) (SRad p :: ss).
Proof.
  intros HQ Ht Hp H. cbn. pose proof (rad_den_pos p th Hp Ht).
  assert (0 <= fold_right (fun s acc => D_s q s a th + acc) 0 ss); [|lra].
  induction H as [|s ss Hs H IH]; cbn; [lra|]. pose proof (D_nonneg q s a th HQ Hs Ht). lra.
Qed.

(* ---------- one universe meeting all the hypotheses ---------- *)
Definition ex_content (f : R -> R -> R) : list species :=
  [SRad (mkTpart 2 0 false); SInt (mkTpart 4 (1 / 2) true); SNon (mkTpart 2 0 true) f (fun a y => y)].
Definition ex_rule : rule := [(1, 1); (2, 1)].

Lemma ex_rule_pos : Forall (fun nw : R * R => 0 < fst nw /\ 0 <= snd nw) ex_rule.
Proof. repeat constructor; cbn; lra. Qed.

Lemma ex_linear (k : R) : is_derive (fun b => 1 + k * (b - 1)) 1 k.
Proof. auto_derive; [exact I|]. ring. Qed.

Lemma ex_log y : is_derive (fun b => y * ln b) 1 (1 / 1 * y).
Proof. auto_derive; [lra|]. field. Qed.

Lemma ex_lin y : is_derive (fun b => y * (2 * b)) 1 (2 * y).
Proof. auto_derive; [exact I|]. ring. Qed.
