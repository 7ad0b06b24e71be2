(* C179: the accuracy asked for a massive particle, added after mutation tests *)
From Coq Require Import Reals Lra.
From Coquelicot Require Import Coquelicot.
From Verif Require Import Base FunctionalModel GridsModel DsModel BoundsModel Integrate3Model Integrate4Model TolModel TolProofs TolProps.
Open Scope R_scope.

(* One integral of a massive particle, other than a coefficient of f: the change
   it makes in a step is exact to one per cent, whatever the occupation, enlarged
   by the width of the interval, and two per cent of what is integrated. *)
Theorem C179_massive_kind : forall logmode h aT c rs M Ms st mn mx mx3 p0 lo hi f k I S r,
  0 < h -> 0 < aT -> 0 < c -> snd (p1_step rs mx3 st p0) = Some (Some lo, Some hi) -> lo <= hi ->
  mass (rs 0%nat) <> 0 -> occ (rs 0%nat) p0 = Ok f -> k <> Ff -> k <> Ff_vacuum ->
  exact4 rs M Ms k mn mx mx3 p0 lo hi I S -> point4_returned rs M Ms k st mn mx mx3 (stepsize_of logmode h aT c) p0 r ->
  Rabs (h * (r * c) - h * (I * c)) <= step_unit logmode aT / 100 * (1 + 101 / 100 * (hi - lo)) + 201 / 10000 * (h * (S * c)).
Proof.
  intros logmode h aT c rs M Ms st mn mx mx3 p0 lo hi f k I S r Hh HT Hc Hl Hle Hm Hf N1 N2 HI Hr.
  rewrite <- (Rmult_1_r (step_unit logmode aT)).
  refine (one_kind logmode h aT c Hh HT Hc rs M Ms st mn mx mx3 p0 lo hi Hl Hle k 1 I S r _ Rle_0_1 HI Hr).
  unfold abseps4. rewrite Hf, Rmult_1_r. cbn. destruct (Req_EM_T (mass (rs 0%nat)) 0) as [E|_]; [contradiction|].
  destruct k; try contradiction; reflexivity.
Qed.
Print Assumptions C179_massive_kind.

(* and an occupation that cannot be looked up is an error, except for the
   coefficients of f, where it is not looked up *)
Theorem C179_lookup : forall rs M Ms k st mn mx mx3 s p0 lo hi e r,
  snd (p1_step rs mx3 st p0) = Some (Some lo, Some hi) -> occ (rs 0%nat) p0 = Raise e -> k <> Ff -> k <> Ff_vacuum ->
  ~ point4_returned rs M Ms k st mn mx mx3 s p0 r.
Proof.
  intros rs M Ms k st mn mx mx3 s p0 lo hi e r Hl Ho N1 N2 H. unfold point4_returned in H. rewrite Hl in H.
  destruct H as (eps & w & I & He & _). unfold abseps4 in He. rewrite Ho in He. destruct k; try contradiction; discriminate.
Qed.
Print Assumptions C179_lookup.

(* annihilation of a particle of mass 2 at rest on massless ones, each with
   occupation 1/4, at constant squared amplitude 1; the integral is 3/128, and the
   result here is off by more than it *)
Definition heavy (n : nat) : participant :=
  mkParticipant (match n with O => 2 | _ => 0 end) (mkLeg (if (n <? 2)%nat then -1 else 1) 1) (fun _ => Ok (1 / 4)).
Lemma heavy_rest : energy 0 2 = 2.
Proof. unfold energy. replace (0 ^ 2 + 2 ^ 2) with (2 * 2) by ring. apply sqrt_square. lra. Qed.
Lemma heavy_integrand : forall p1 p2, 0 < p1 -> 1 < p2 < 1 + p1 -> integrand4 heavy flat_M [] F1 0 p1 p2 = Ok (3 / 64).
Proof.
  intros p1 p2 H1 H2. pose proof flat_F1 as HF. unfold integrand4, momenta4. cbn -[energy Rlt_dec functional legs pow sqrt].
  rewrite heavy_rest, !energy_massless by lra.
  assert (HE : (0 + -1 * 2 + -1 * p1 + 1 * p2) * - (1) = 2 + p1 - p2) by ring. rewrite HE.
  destruct (Rlt_dec (2 + p1 - p2) 0); [lra|].
  replace ((2 + p1 - p2) ^ 2 - 0 ^ 2) with ((2 + p1 - p2) * (2 + p1 - p2)) by ring. rewrite sqrt_square by lra.
  assert (HI : in_bounds4 (fun n => match n with O => 0 | 1%nat => p1 | 2%nat => p2 | _ => 2 + p1 - p2 end)
                 (fun n => match n with 0%nat => 2 | 1%nat => p1 | 2%nat => p2 | _ => 2 + p1 - p2 end) (masses_of heavy) = true).
  { unfold in_bounds4. cbn -[Rlt_dec Rle_dec]. destruct (Rlt_dec 0 p1), (Rlt_dec p2 (2 + p1 - p2)); cbn -[Rlt_dec Rle_dec];
      repeat (match goal with |- context [Rle_dec ?a ?b] => destruct (Rle_dec a b); [|lra] end); reflexivity. }
  match goal with |- (if ?b then _ else _) = _ => replace b with true end.
  unfold velocity, masses_of. cbn [heavy mass]. destruct (Req_EM_T 0 0) as [_|N]; [|now destruct N].
  rewrite !Rmult_1_l. destruct (Req_EM_T 1 0); [lra|]. unfold kernel. cbn [flat_M K]. rewrite Rplus_0_l. destruct (Req_EM_T 1 0); [lra|].
  destruct (Req_EM_T 1 0); [lra|]. change (legs heavy 4) with (legs flat 4). rewrite HF. cbn. now rewrite Rmult_1_l.
Qed.
Lemma heavy_limits : snd (p1_step heavy 1 (Some 0, Some 1) 0) = Some (Some 0, Some 1).
Proof.
  unfold p1_step. cbn -[energy Rlt_dec root_or]. unfold masses_of. cbn [heavy mass]. unfold root_or. rewrite heavy_rest.
  destruct (Rle_dec (0 + 0 - 2) 0); [|lra]. cbn -[Rlt_dec]. destruct (Rlt_dec (3 * 0) 1); [reflexivity|lra].
Qed.
Lemma heavy_inner : forall p1, 0 < p1 -> inner_is heavy flat_M [] F1 (Some 0) (Some 1) 1 0 p1 (3 / 64 * p1).
Proof.
  intros p1 H1. unfold inner_is.
  assert (HL : p2_limits heavy (Some 0) (Some 1) 1 0 p1 = Some (Some 1, Some (1 + p1))).
  { unfold p2_limits. cbn -[p2_min_scat p2_max_scat]. unfold p2_min_scat, p2_max_scat, masses_of, all_zero. cbn [heavy mass].
    destruct (Req_EM_T 0 0) as [_|N]; [|now destruct N]. destruct (Req_EM_T 2 0); [lra|].
    f_equal. f_equal; f_equal; field. }
  rewrite HL. exists (fun _ => 3 / 64). rewrite Rmin_left, Rmax_right by lra. split.
  - intros p2 H2. now apply heavy_integrand.
  - replace (3 / 64 * p1) with (scal (1 + p1 - 1) (3 / 64)) by (unfold scal; cbn; unfold mult; cbn; ring). apply (is_RInt_const (V := R_NormedModule)).
Qed.
Example C179_massive_case :
  let s := stepsize_of true 1 2 (1 / 10) in
  snd (p1_step heavy 1 (Some 0, Some 1) 0) = Some (Some 0, Some 1) /\ mass (heavy 0%nat) <> 0 /\ occ (heavy 0%nat) 0 = Ok (1 / 4) /\
  exact4 heavy flat_M [] F1 (Some 0) (Some 1) 1 0 0 1 (3 / 128) (3 / 128) /\
  point4_returned heavy flat_M [] F1 (Some 0, Some 1) (Some 0) (Some 1) 1 s 0 (3 / 128 + 1 / 10).
Proof.
  cbv zeta. split; [exact heavy_limits|]. split; [cbn; lra|]. split; [reflexivity|].
  assert (HI : is_RInt (fun p => 3 / 64 * p) 0 1 (3 / 128)).
  { replace (3 / 128) with (3 / 128 * 1 ^ 2 - 3 / 128 * 0 ^ 2) by field.
    apply (is_RInt_derive (V := R_CompleteNormedModule) (fun p => 3 / 128 * p ^ 2) (fun p => 3 / 64 * p)).
    - intros x _. auto_derive; [exact I|]. field.
    - intros x _. apply (ex_derive_continuous (V := R_NormedModule)). auto_derive. exact I. }
  assert (XA : exact4 heavy flat_M [] F1 (Some 0) (Some 1) 1 0 0 1 (3 / 128) (3 / 128)).
  { exists (fun p => 3 / 64 * p). split; [intros p1 Hp; apply heavy_inner; lra|]. split; [exact HI|].
    eapply is_RInt_ext; [|exact HI]. intros x Hx. rewrite Rmin_left, Rmax_right in Hx by lra. rewrite Rabs_right; lra. }
  split; [exact XA|].
  assert (HS : stepsize_of true 1 2 (1 / 10) = 1 / 10) by (unfold stepsize_of; lra). rewrite HS.
  apply (point4_accepts _ _ _ _ _ _ _ _ _ _ 0 1 (1 / 100 / (1 / 10)) (3 / 128)); [exact heavy_limits | | lra | |].
  - unfold abseps4. cbn. destruct (Req_EM_T 2 0) as [N|_]; [lra|reflexivity].
  - unfold point4_is. rewrite heavy_limits. destruct XA as (w & H1 & H2 & _). exists w. rewrite Rmin_left, Rmax_right by lra. split; assumption.
  - unfold accepted. eapply Rle_trans; [|apply Rmax_l]. replace (3 / 128 + 1 / 10 - 3 / 128) with (1 / 10) by field. rewrite Rabs_right by lra. lra.
Qed.
