(* C130, C61: the value of the collision integrands. *)
From Coq Require Import Reals Lra.
From Verif Require Import Base FunctionalModel FunctionalProofs FunctionalProps DsModel BoundsModel BoundsProofs BoundsProps.
Open Scope R_scope.

(* four momenta and energies on the mass shell and conserving energy *)
Definition on_shell4 (rs : nat -> participant) (p E : nat -> R) : Prop :=
  (forall n, (n < 4)%nat -> E n = energy (p n) (mass (rs n))) /\
  IZR (side (plg (rs 0%nat))) * E 0%nat + IZR (side (plg (rs 1%nat))) * E 1%nat +
  IZR (side (plg (rs 2%nat))) * E 2%nat + IZR (side (plg (rs 3%nat))) * E 3%nat = 0.
Definition on_shell3 (rs : nat -> participant) (p E : nat -> R) : Prop :=
  (forall n, (n < 3)%nat -> E n = energy (p n) (mass (rs n))) /\
  IZR (side (plg (rs 0%nat))) * E 0%nat + IZR (side (plg (rs 1%nat))) * E 1%nat +
  IZR (side (plg (rs 2%nat))) * E 2%nat = 0.
Definition signed (rs : nat -> participant) (n : nat) : Prop :=
  forall k, (k < n)%nat -> side (plg (rs k)) = 1%Z \/ side (plg (rs k)) = (-1)%Z.

Lemma energy_of_root e m : 0 <= m -> m <= e -> energy (sqrt (e ^ 2 - m ^ 2)) m = e.
Proof.
  intros Hm He. unfold energy. rewrite pow2_sqrt by nra. replace (e ^ 2 - m ^ 2 + m ^ 2) with (e ^ 2) by ring. apply sqrt_pow2. lra.
Qed.

Theorem C130_momenta4 : forall rs p0 p1 p2 p E, masses_ok rs -> signed rs 4 ->
  momenta4 rs p0 p1 p2 = Some (p, E) ->
  p 0%nat = p0 /\ p 1%nat = p1 /\ p 2%nat = p2 /\ 0 <= p 3%nat /\ on_shell4 rs p E.
Proof.
  intros rs p0 p1 p2 p E Hm Hs H. unfold momenta4 in H. cbv zeta in H. unfold masses_of, sides_of in H.
  destruct (Rlt_dec _ _) as [X|X]; [discriminate|]. apply (f_equal (fun o => match o with Some x => x | None => (p, E) end)) in H.
  cbv beta iota in H. inversion H as [[Hp HE]]. clear H. cbv beta iota.
  split; [reflexivity|]. split; [reflexivity|]. split; [reflexivity|]. split; [apply sqrt_pos|].
  unfold on_shell4. cbv beta iota. split.
  - intros n Hn. destruct n as [|[|[|[|n]]]]; try lia; cbv beta iota; try reflexivity.
    symmetry. apply energy_of_root; [apply Hm|lra].
  - destruct (Hs 3%nat ltac:(lia)) as [-> | ->]; ring.
Qed.
Print Assumptions C130_momenta4.
Theorem C130_momenta3 : forall rs p0 p1 p E, masses_ok rs -> signed rs 3 ->
  momenta3 rs p0 p1 = Some (p, E) ->
  p 0%nat = p0 /\ p 1%nat = p1 /\ 0 <= p 2%nat /\ on_shell3 rs p E.
Proof.
  intros rs p0 p1 p E Hm Hs H. unfold momenta3 in H. cbv zeta in H. unfold masses_of, sides_of in H.
  destruct (Rlt_dec _ _) as [X|X]; [discriminate|]. apply (f_equal (fun o => match o with Some x => x | None => (p, E) end)) in H.
  cbv beta iota in H. inversion H as [[Hp HE]]. clear H. cbv beta iota.
  split; [reflexivity|]. split; [reflexivity|]. split; [apply sqrt_pos|].
  unfold on_shell3. cbv beta iota. split.
  - intros n Hn. destruct n as [|[|[|n]]]; try lia; cbv beta iota; try reflexivity.
    symmetry. apply energy_of_root; [apply Hm|lra].
  - destruct (Hs 2%nat ltac:(lia)) as [-> | ->]; ring.
Qed.
Print Assumptions C130_momenta3.
(* the momenta exist exactly when energy conservation leaves enough energy for the last particle *)
Theorem C130_threshold : forall rs p0 p1 p2, masses_ok rs -> signed rs 4 ->
  (exists pE, momenta4 rs p0 p1 p2 = Some pE) <->
  exists q, 0 <= q /\
    IZR (side (plg (rs 0%nat))) * energy p0 (mass (rs 0%nat)) + IZR (side (plg (rs 1%nat))) * energy p1 (mass (rs 1%nat)) +
    IZR (side (plg (rs 2%nat))) * energy p2 (mass (rs 2%nat)) + IZR (side (plg (rs 3%nat))) * energy q (mass (rs 3%nat)) = 0.
Proof.
  intros rs p0 p1 p2 Hm Hs. split.
  - intros [[p E] H]. destruct (C130_momenta4 rs p0 p1 p2 p E Hm Hs H) as (H0 & H1 & H2 & H3 & HE & HC).
    exists (p 3%nat). split; [exact H3|]. rewrite <- H0, <- H1, <- H2, <- !HE by lia. exact HC.
  - intros (q & Hq & HC). unfold momenta4. cbv zeta. unfold masses_of, sides_of.
    destruct (Rlt_dec _ _) as [X|X]; [|eexists; reflexivity]. exfalso.
    pose proof (energy_ge_m q (mass (rs 3%nat))) as G.
    destruct (Hs 3%nat ltac:(lia)) as [S3|S3]; rewrite S3 in *; lra.
Qed.
Print Assumptions C130_threshold.

(* the velocity of a particle *)
Definition speed (p m : R) : R := if Req_EM_T m 0 then 1 else p / sqrt (p ^ 2 + m ^ 2).

(* inside the allowed region: the product of the two velocities, the summed
   matrix elements over p E of the first particle, and the functional of all
   four occupations *)
Theorem C130_value4 : forall rs M Ms k p0 p1 p2 p E x0 x1 x2 x3 F,
  momenta4 rs p0 p1 p2 = Some (p, E) -> in_bounds4 p E (masses_of rs) = true -> p0 <> 0 ->
  occ (rs 0%nat) p0 = Ok x0 -> occ (rs 1%nat) p1 = Ok x1 -> occ (rs 2%nat) p2 = Ok x2 -> occ (rs 3%nat) (p 3%nat) = Ok x3 ->
  functional k [plg (rs 0%nat); plg (rs 1%nat); plg (rs 2%nat); plg (rs 3%nat)] [x0; x1; x2; x3] = Ok F ->
  integrand4 rs M Ms k p0 p1 p2 = Ok (
    speed p1 (mass (rs 1%nat)) * speed p2 (mass (rs 2%nat)) * F *
    (if Req_EM_T (K M) 0 then
       fold_right Rplus 0 (map (fun M => Dfun p E (masses_of rs) (K1 M) (K2 M) (order M) (sides_of rs)) (M :: Ms))
       / (p0 * energy p0 (mass (rs 0%nat)))
     else K M)).
Proof.
  intros rs M Ms k p0 p1 p2 p E x0 x1 x2 x3 F H HB Hp O0 O1 O2 O3 HF. unfold integrand4. rewrite H, HB.
  assert (HpE : p 0%nat = p0 /\ p 1%nat = p1 /\ p 2%nat = p2 /\ E 0%nat = energy p0 (mass (rs 0%nat))).
  { clear - H. unfold momenta4 in H. cbv zeta in H. destruct (Rlt_dec _ _) as [X|X]; [discriminate|].
    apply (f_equal (fun o => match o with Some x => x | None => (p, E) end)) in H. cbv beta iota in H. inversion H. repeat split. }
  destruct HpE as (P0 & P1 & P2 & E0).
  cbv zeta. change (velocity p1 (masses_of rs 1%nat)) with (speed p1 (mass (rs 1%nat))). change (velocity p2 (masses_of rs 2%nat)) with (speed p2 (mass (rs 2%nat))).
  assert (HK : kernel p E (masses_of rs) (sides_of rs) M Ms =
    (if Req_EM_T (K M) 0 then
       fold_right Rplus 0 (map (fun M => Dfun p E (masses_of rs) (K1 M) (K2 M) (order M) (sides_of rs)) (M :: Ms))
       / (p0 * energy p0 (mass (rs 0%nat)))
     else K M)).
  { unfold kernel. rewrite P0, E0. destruct (Req_EM_T (K M) 0); [|ring]. destruct (Req_EM_T p0 0); [contradiction|]. f_equal.
    enough (G : forall l a, fold_left (fun ds M => ds + Dfun p E (masses_of rs) (K1 M) (K2 M) (order M) (sides_of rs)) l a =
      a + fold_right Rplus 0 (map (fun M => Dfun p E (masses_of rs) (K1 M) (K2 M) (order M) (sides_of rs)) l)) by (rewrite G; ring).
    induction l as [|x l IH]; intros a; cbn [fold_left map fold_right]; [ring|]. rewrite IH. ring. }
  rewrite HK. set (kern := if Req_EM_T (K M) 0 then _ else _). clearbody kern.
  set (v := speed p1 _ * speed p2 _). clearbody v.
  destruct (Req_EM_T v 0) as [->|V]; [f_equal; ring|].
  destruct (Req_EM_T (v * kern) 0) as [Z|Z]; [f_equal; replace (v * F * kern) with (v * kern * F) by ring; rewrite Z; ring|].
  cbn [occupations]. rewrite P0, P1, P2, O0. cbn [rbind]. rewrite O1. cbn [rbind]. rewrite O2. cbn [rbind]. rewrite O3. cbn [rbind].
  change (legs rs 4) with [plg (rs 0%nat); plg (rs 1%nat); plg (rs 2%nat); plg (rs 3%nat)]. rewrite HF. cbn [rbind]. f_equal. ring.
Qed.
Print Assumptions C130_value4.

Theorem C130_value3 : forall rs k p0 p1 p E x0 x1 x2 F,
  momenta3 rs p0 p1 = Some (p, E) -> p0 <> 0 ->
  occ (rs 0%nat) p0 = Ok x0 -> occ (rs 1%nat) p1 = Ok x1 -> occ (rs 2%nat) (p 2%nat) = Ok x2 ->
  functional k [plg (rs 0%nat); plg (rs 1%nat); plg (rs 2%nat)] [x0; x1; x2] = Ok F ->
  integrand3 rs k p0 p1 = Ok (in_bounds3 p * speed p1 (mass (rs 1%nat)) * F / (p0 * energy p0 (mass (rs 0%nat)))).
Proof.
  intros rs k p0 p1 p E x0 x1 x2 F H Hp O0 O1 O2 HF. unfold integrand3. rewrite H. cbv zeta.
  assert (HpE : p 0%nat = p0 /\ p 1%nat = p1).
  { clear - H. unfold momenta3 in H. cbv zeta in H. destruct (Rlt_dec _ _) as [X|X]; [discriminate|].
    apply (f_equal (fun o => match o with Some x => x | None => (p, E) end)) in H. cbv beta iota in H. inversion H. repeat split. }
  destruct HpE as (P0 & P1). destruct (Req_EM_T p0 0); [contradiction|].
  change (velocity p1 (masses_of rs 1%nat)) with (speed p1 (mass (rs 1%nat))). change (masses_of rs 0%nat) with (mass (rs 0%nat)).
  set (b := in_bounds3 p). set (v := speed p1 _). set (e := p0 * energy _ _). clearbody b v e.
  destruct (Req_EM_T (b * v / e) 0) as [Z|Z].
  - f_equal. replace (b * v * F / e) with (b * v / e * F) by (unfold Rdiv; ring). rewrite Z. ring.
  - cbn [occupations]. rewrite P0, P1, O0. cbn [rbind]. rewrite O1. cbn [rbind]. rewrite O2. cbn [rbind].
    change (legs rs 3) with [plg (rs 0%nat); plg (rs 1%nat); plg (rs 2%nat)]. rewrite HF. cbn [rbind]. f_equal. unfold Rdiv. ring.
Qed.
Print Assumptions C130_value3.

(* C131: participants with Fermi-Dirac or Bose-Einstein distributions of one
   temperature and conserved chemical potentials mu: occupation
   1 / (exp ((E - mu) / T) + eta), with no bosonic pole *)
Definition thermal (rs : nat -> participant) (T : R) (mu : nat -> R) (n : nat) : Prop :=
  forall k, (k < n)%nat -> forall q, 0 <= q ->
  let x := (energy q (mass (rs k)) - mu k) / T in
  0 < exp x + eta (plg (rs k)) /\ occ (rs k) q = Ok (1 / (exp x + eta (plg (rs k)))).

Theorem C131_equilibrium4 : forall rs M Ms T mu p0 p1 p2, masses_ok rs -> signed rs 4 -> side (plg (rs 0%nat)) = (-1)%Z -> T <> 0 ->
  IZR (side (plg (rs 0%nat))) * mu 0%nat + IZR (side (plg (rs 1%nat))) * mu 1%nat +
  IZR (side (plg (rs 2%nat))) * mu 2%nat + IZR (side (plg (rs 3%nat))) * mu 3%nat = 0 ->
  thermal rs T mu 4 -> 0 <= p0 -> 0 <= p1 -> 0 <= p2 ->
  integrand4 rs M Ms Full p0 p1 p2 = Ok 0.
Proof.
  intros rs M Ms T mu p0 p1 p2 Hm Hs HS HT HMU HTH H0 H1 H2. unfold integrand4.
  destruct (momenta4 rs p0 p1 p2) as [[p E]|] eqn:HM; [|reflexivity].
  destruct (C130_momenta4 rs p0 p1 p2 p E Hm Hs HM) as (P0 & P1 & P2 & P3 & HE & HC).
  destruct (in_bounds4 p E (masses_of rs)); [|reflexivity]. cbv zeta.
  destruct (Req_EM_T _ 0); [reflexivity|]. destruct (Req_EM_T _ 0); [reflexivity|].
  set (x := fun k => (E k - mu k) / T).
  assert (HT' : forall k, (k < 4)%nat -> 0 < exp (x k) + eta (plg (rs k)) /\ occ (rs k) (p k) = Ok (1 / (exp (x k) + eta (plg (rs k))))).
  { intros k Hk. unfold x. rewrite HE by exact Hk. apply HTH; auto. destruct k as [|[|[|[|k]]]]; try lia; congruence || lra. }
  assert (HO : forall k, (k < 4)%nat -> occ (rs k) (p k) = Ok (1 / (exp (x k) + eta (plg (rs k))))) by (intros k Hk; apply (HT' k Hk)).
  cbn [occupations]. rewrite !HO by lia. cbn [rbind].
  change (legs rs 4) with (plg (rs 0%nat) :: [plg (rs 1%nat); plg (rs 2%nat); plg (rs 3%nat)]).
  pose proof (C51_detailed_balance (plg (rs 0%nat)) (x 0%nat) [plg (rs 1%nat); plg (rs 2%nat); plg (rs 3%nat)] [x 1%nat; x 2%nat; x 3%nat]) as D.
  unfold eq_occ in D. cbn [combine map fst snd] in D. unfold equil in D. rewrite D; clear D.
  - cbn [rbind]. f_equal. ring.
  - reflexivity.
  - exact HS.
  - repeat (apply Forall_cons; [apply Hs; lia|]); apply Forall_nil.
  - repeat (apply Forall2_cons; [apply HT'; lia|]); apply Forall2_nil.
  - unfold charge. cbn [combine map fold_right fst snd]. unfold x.
    match goal with |- ?a = 0 => replace a with
      (((IZR (side (plg (rs 0%nat))) * E 0%nat + IZR (side (plg (rs 1%nat))) * E 1%nat +
         IZR (side (plg (rs 2%nat))) * E 2%nat + IZR (side (plg (rs 3%nat))) * E 3%nat) -
        (IZR (side (plg (rs 0%nat))) * mu 0%nat + IZR (side (plg (rs 1%nat))) * mu 1%nat +
         IZR (side (plg (rs 2%nat))) * mu 2%nat + IZR (side (plg (rs 3%nat))) * mu 3%nat)) / T) by (field; exact HT) end.
    rewrite HC, HMU. field. exact HT.
Qed.
Print Assumptions C131_equilibrium4.

Theorem C131_equilibrium3 : forall rs T mu p0 p1, masses_ok rs -> signed rs 3 -> side (plg (rs 0%nat)) = (-1)%Z -> T <> 0 ->
  IZR (side (plg (rs 0%nat))) * mu 0%nat + IZR (side (plg (rs 1%nat))) * mu 1%nat + IZR (side (plg (rs 2%nat))) * mu 2%nat = 0 ->
  thermal rs T mu 3 -> 0 <= p0 -> 0 <= p1 ->
  integrand3 rs Full p0 p1 = Ok 0.
Proof.
  intros rs T mu p0 p1 Hm Hs HS HT HMU HTH H0 H1. unfold integrand3.
  destruct (momenta3 rs p0 p1) as [[p E]|] eqn:HM; [|reflexivity].
  destruct (C130_momenta3 rs p0 p1 p E Hm Hs HM) as (P0 & P1 & P2 & HE & HC). cbv zeta.
  match goal with |- (if Req_EM_T ?t 0 then _ else _) = _ => set (temp := t); destruct (Req_EM_T temp 0); [reflexivity|] end.
  set (x := fun k => (E k - mu k) / T).
  assert (HT' : forall k, (k < 3)%nat -> 0 < exp (x k) + eta (plg (rs k)) /\ occ (rs k) (p k) = Ok (1 / (exp (x k) + eta (plg (rs k))))).
  { intros k Hk. unfold x. rewrite HE by exact Hk. apply HTH; auto. destruct k as [|[|[|k]]]; try lia; congruence || lra. }
  assert (HO : forall k, (k < 3)%nat -> occ (rs k) (p k) = Ok (1 / (exp (x k) + eta (plg (rs k))))) by (intros k Hk; apply (HT' k Hk)).
  cbn [occupations]. rewrite !HO by lia. cbn [rbind].
  change (legs rs 3) with (plg (rs 0%nat) :: [plg (rs 1%nat); plg (rs 2%nat)]).
  pose proof (C51_detailed_balance (plg (rs 0%nat)) (x 0%nat) [plg (rs 1%nat); plg (rs 2%nat)] [x 1%nat; x 2%nat]) as D.
  unfold eq_occ in D. cbn [combine map fst snd] in D. unfold equil in D. rewrite D; clear D.
  - cbn [rbind]. f_equal. ring.
  - reflexivity.
  - exact HS.
  - repeat (apply Forall_cons; [apply Hs; lia|]); apply Forall_nil.
  - repeat (apply Forall2_cons; [apply HT'; lia|]); apply Forall2_nil.
  - unfold charge. cbn [combine map fold_right fst snd]. unfold x.
    match goal with |- ?a = 0 => replace a with
      (((IZR (side (plg (rs 0%nat))) * E 0%nat + IZR (side (plg (rs 1%nat))) * E 1%nat + IZR (side (plg (rs 2%nat))) * E 2%nat) -
        (IZR (side (plg (rs 0%nat))) * mu 0%nat + IZR (side (plg (rs 1%nat))) * mu 1%nat + IZR (side (plg (rs 2%nat))) * mu 2%nat)) / T) by (field; exact HT) end.
    rewrite HC, HMU. field. exact HT.
Qed.
Print Assumptions C131_equilibrium3.

(* two massless fermions scattering into two fermions of mass 1, all thermal at T = 1 *)
Definition bath (n : nat) : participant :=
  let m := match n with 0%nat | 1%nat => 0 | _ => 1 end in
  mkParticipant m (mkLeg (match n with 0%nat | 1%nat => (-1)%Z | _ => 1%Z end) 1) (fun q => Ok (1 / (exp (energy q m) + 1))).
Example C130_ex : masses_ok bath /\ signed bath 4 /\ thermal bath 1 (fun _ => 0) 4 /\ exists pE, momenta4 bath 1 2 0 = Some pE /\ fst pE 3%nat = sqrt 3.
Proof.
  split; [intros [|[|[|n]]]; cbn; lra|]. split; [intros [|[|[|n]]] _; cbn; auto|]. split.
  - intros k Hk q Hq. cbv zeta. replace ((energy q (mass (bath k)) - 0) / 1) with (energy q (mass (bath k))) by field.
    pose proof (exp_pos (energy q (mass (bath k)))). split; [|reflexivity]. destruct k as [|[|[|k]]]; cbn [bath plg eta]; lra.
  - unfold momenta4. cbv zeta. unfold masses_of, sides_of. cbn [bath plg side mass].
    rewrite !energy_zero by lra. rewrite energy_rest by lra.
    replace ((0 + -1 * 1 + -1 * 2 + 1 * 1) * - (1)) with 2 by ring. destruct (Rlt_dec 2 1); [lra|]. eexists. split; [reflexivity|].
    cbn [fst]. f_equal. ring.
Qed.
