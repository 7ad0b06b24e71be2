(* C135, C136: one collision event, seen from its different participants. *)
From Coq Require Import Reals Lra Lia Psatz Permutation.
From Verif Require Import Base FunctionalModel FunctionalProofs FunctionalProps DsModel DsProofs BoundsModel BoundsProofs BoundsProps Bounds2Props EventProofs.
Open Scope R_scope.
Local Notation length := List.length.

(* The rate of change of the number of particles 0 in a comoving volume is the
   integral of p0^2 v dp0 dp1 (dp2), v the integrand; in terms of the energies of
   the participants p^2 v dp0 dp1 = p0^2 v (E0/p0) (E1/p1) dE0 dE1. As one energy
   is fixed by the others the measure is the same for every participant. *)
Definition per_event3 (v p0 p1 E0 E1 : R) : R := v * p0 ^ 2 * (E0 / p0) * (E1 / p1).
Definition per_event4 (v p0 p1 p2 E0 E1 E2 : R) : R := v * p0 ^ 2 * (E0 / p0) * (E1 / p1) * (E2 / p2).

Lemma occ_choice (rs : nat -> participant) (p : nat -> R) n : (forall k, (k < n)%nat -> exists x, occ (rs k) (p k) = Ok x /\ 0 <= x) ->
  exists x : nat -> R, forall k, (k < n)%nat -> occ (rs k) (p k) = Ok (x k) /\ 0 <= x k.
Proof.
  intros H. exists (fun k => match occ (rs k) (p k) with Ok x => x | Raise _ => 0 end). intros k Hk. destruct (H k Hk) as (x & E & Hx). rewrite E. auto.
Qed.

Theorem C135_three_particles : forall rs rs' sg p0 p1 p E, masses_ok rs -> signed rs 3 -> side (plg (rs 0%nat)) = (-1)%Z ->
  Permutation [sg 0%nat; sg 1%nat; sg 2%nat] [0; 1; 2]%nat -> seen_from rs rs' sg 3 ->
  momenta3 rs p0 p1 = Some (p, E) -> p 0%nat = p0 -> p 1%nat = p1 -> (forall k, (k < 3)%nat -> 0 < p k) ->
  (forall k, (k < 3)%nat -> exists x, occ (rs k) (p k) = Ok x /\ 0 <= x) ->
  exists v w, integrand3 rs Full p0 p1 = Ok v /\ integrand3 rs' Full (p (sg 0%nat)) (p (sg 1%nat)) = Ok w /\
  per_event3 w (p (sg 0%nat)) (p (sg 1%nat)) (E (sg 0%nat)) (E (sg 1%nat)) =
  - IZR (side (plg (rs (sg 0%nat)))) * per_event3 v p0 p1 (E 0%nat) (E 1%nat).
Proof.
  intros rs rs' sg p0 p1 p E Hm Hs HS0 HP HV HM P0 P1 Hp HO.
  pose proof (perm_lt3 sg HP) as HL. pose proof (Hp 0%nat ltac:(lia)) as Q0. pose proof (Hp 1%nat ltac:(lia)) as Q1. pose proof (Hp 2%nat ltac:(lia)) as Q2.
  destruct (momenta3_seen rs rs' sg p0 p1 p E Hm Hs HP HV ltac:(lra) ltac:(lra) HM) as (p' & E' & HM' & HPE).
  destruct (C130_momenta3 rs p0 p1 p E Hm Hs HM) as (_ & _ & _ & HE & _).
  destruct (occ_choice rs p 3 HO) as (x & Hx).
  destruct (full_seen rs rs' sg x [0; 1; 2]%nat) as (F & HF & HF'); auto.
  { intros k. cbn. lia. } { intros k Hk. now apply Hx. } { eexists. reflexivity. }
  cbn [map] in HF, HF'.
  destruct (HV 0%nat ltac:(lia)) as (M0 & O0 & _). destruct (HV 1%nat ltac:(lia)) as (M1 & O1 & _). destruct (HV 2%nat ltac:(lia)) as (M2 & O2 & _).
  destruct (HPE 2%nat ltac:(lia)) as (P2' & _). destruct (HPE 0%nat ltac:(lia)) as (P0' & _). destruct (HPE 1%nat ltac:(lia)) as (P1' & _).
  eexists _, _. split; [|split].
  - apply (C130_value3 rs Full p0 p1 p E (x 0%nat) (x 1%nat) (x 2%nat) F HM); try lra; auto.
    + rewrite <- P0. apply Hx. lia.
    + rewrite <- P1. apply Hx. lia.
    + apply Hx. lia.
  - apply (C130_value3 rs' Full _ _ p' E' (x (sg 0%nat)) (x (sg 1%nat)) (x (sg 2%nat)) (- IZR (side (plg (rs (sg 0%nat)))) * F) HM').
    + pose proof (Hp (sg 0%nat) (HL 0%nat ltac:(lia))). lra.
    + rewrite O0. apply Hx, HL. lia.
    + rewrite O1. apply Hx, HL. lia.
    + rewrite O2, P2'. apply Hx, HL. lia.
    + exact HF'.
  - assert (HB : in_bounds3 p' = in_bounds3 p).
    { symmetry. apply C61_three_particle_order_independent; try lra. rewrite P0', P1', P2'. apply (Permutation_map p (Permutation_sym HP)). }
    rewrite HB. pose proof (Hp (sg 0%nat) (HL 0%nat ltac:(lia))) as R0. pose proof (Hp (sg 1%nat) (HL 1%nat ltac:(lia))) as R1.
    rewrite !speed_pos by lra. rewrite M0, M1, <- P0, <- P1.
    rewrite <- !HE by (try (apply HL); lia).
    assert (EP : forall k, (k < 3)%nat -> 0 < E k) by (intros k Hk; rewrite HE by exact Hk; pose proof (energy_ge (p k) (mass (rs k)) (Rlt_le _ _ (Hp k Hk))); pose proof (Hp k Hk); lra).
    pose proof (EP (sg 0%nat) (HL 0%nat ltac:(lia))). pose proof (EP (sg 1%nat) (HL 1%nat ltac:(lia))).
    pose proof (EP 0%nat ltac:(lia)). pose proof (EP 1%nat ltac:(lia)).
    unfold per_event3. field. repeat split; lra.
Qed.
Print Assumptions C135_three_particles.
(* a decay 0 -> 1 + 2 and the inverse decay 1 + 2 -> 0 seen from product 1 *)
Definition decay_rs (n : nat) : participant :=
  match n with O => mkParticipant 1 (mkLeg (-1) (-1)) (fun _ => Ok 1) | _ => mkParticipant 0 (mkLeg 1 1) (fun _ => Ok 0) end.
Definition product_rs (n : nat) : participant :=
  match n with O => mkParticipant 0 (mkLeg (-1) 1) (fun _ => Ok 0) | 1%nat => mkParticipant 0 (mkLeg (-1) 1) (fun _ => Ok 0) | _ => mkParticipant 1 (mkLeg 1 (-1)) (fun _ => Ok 1) end.
Definition rot3 (n : nat) : nat := match n with O => 1%nat | 1%nat => 2%nat | _ => 0%nat end.
Example C135_three_ex : seen_from decay_rs product_rs rot3 3 /\ Permutation [rot3 0; rot3 1; rot3 2]%nat [0; 1; 2]%nat /\
  signed decay_rs 3 /\ masses_ok decay_rs /\ side (plg (decay_rs 0%nat)) = (-1)%Z /\ side (plg (decay_rs (rot3 0%nat))) = 1%Z.
Proof.
  split; [intros [|[|[|k]]] Hk; try lia; repeat split; reflexivity|].
  split; [cbn; apply Permutation_sym, (Permutation_cons_append [1; 2]%nat 0%nat)|].
  split; [intros [|[|[|k]]] Hk; try lia; cbn; auto|]. split; [intros [|k]; cbn; lra|]. split; reflexivity.
Qed.

Theorem C135_four_particles : forall rs rs' M Ms M' Ms' sg p0 p1 p2 p E, masses_ok rs -> signed rs 4 -> side (plg (rs 0%nat)) = (-1)%Z ->
  Permutation [sg 0%nat; sg 1%nat; sg 2%nat; sg 3%nat] [0; 1; 2; 3]%nat -> seen_from rs rs' sg 4 ->
  Forall2 (relabelled sg) (M :: Ms) (M' :: Ms') -> K M = 0 ->
  momenta4 rs p0 p1 p2 = Some (p, E) -> p 0%nat = p0 -> p 1%nat = p1 -> p 2%nat = p2 -> (forall k, (k < 4)%nat -> 0 < p k) ->
  (forall k, (k < 4)%nat -> exists x, occ (rs k) (p k) = Ok x /\ 0 <= x) ->
  exists v w, integrand4 rs M Ms Full p0 p1 p2 = Ok v /\ integrand4 rs' M' Ms' Full (p (sg 0%nat)) (p (sg 1%nat)) (p (sg 2%nat)) = Ok w /\
  per_event4 w (p (sg 0%nat)) (p (sg 1%nat)) (p (sg 2%nat)) (E (sg 0%nat)) (E (sg 1%nat)) (E (sg 2%nat)) =
  - IZR (side (plg (rs (sg 0%nat)))) * per_event4 v p0 p1 p2 (E 0%nat) (E 1%nat) (E 2%nat).
Proof.
  intros rs rs' M Ms M' Ms' sg p0 p1 p2 p E Hm Hs HS0 HP HV HR HK HM P0 P1 P2 Hp HO.
  pose proof (perm_lt4 sg HP) as HL. pose proof (Hp 0%nat ltac:(lia)) as Q0. pose proof (Hp 1%nat ltac:(lia)) as Q1. pose proof (Hp 2%nat ltac:(lia)) as Q2.
  destruct (momenta4_seen rs rs' sg p0 p1 p2 p E Hm Hs HP HV ltac:(lra) ltac:(lra) ltac:(lra) HM) as (p' & E' & HM' & HPE).
  destruct (C130_momenta4 rs p0 p1 p2 p E Hm Hs HM) as (_ & _ & _ & _ & HE & _).
  assert (HEk : forall k, (k < 4)%nat -> mass (rs k) <= E k) by (intros k Hk; rewrite HE by exact Hk; apply energy_ge_m).
  assert (HB : in_bounds4 p' E' (masses_of rs') = in_bounds4 p E (masses_of rs)).
  { apply (in_bounds4_seen sg); auto.
    - intros k Hk. left. now apply Hp.
    - intros k Hk. now apply HPE.
    - unfold masses_of. apply HEk. lia.
    - unfold masses_of. destruct (HV 3%nat ltac:(lia)) as (-> & _). destruct (HPE 3%nat ltac:(lia)) as (_ & ->). apply HEk, HL. lia. }
  destruct (in_bounds4 p E (masses_of rs)) eqn:HBB.
  2:{ exists 0, 0. unfold integrand4. rewrite HM, HM', HB, HBB. split; [reflexivity|]. split; [reflexivity|]. unfold per_event4. ring. }
  destruct (occ_choice rs p 4 HO) as (x & Hx).
  destruct (full_seen rs rs' sg x [0; 1; 2; 3]%nat) as (F & HF & HF'); auto.
  { intros k. cbn. lia. } { intros k Hk. now apply Hx. } { eexists. reflexivity. }
  cbn [map] in HF, HF'.
  destruct (HV 0%nat ltac:(lia)) as (M0 & O0 & _). destruct (HV 1%nat ltac:(lia)) as (M1 & O1 & _). destruct (HV 2%nat ltac:(lia)) as (M2 & O2 & _). destruct (HV 3%nat ltac:(lia)) as (M3 & O3 & _).
  destruct (HPE 3%nat ltac:(lia)) as (P3' & _).
  assert (HK' : K M' = 0).
  { inversion HR as [|? ? ? ? HR1 _]; subst. unfold relabelled in HR1. destruct (order M) as [[[? ?] ?] ?], (order M') as [[[? ?] ?] ?]. destruct HR1 as (_ & _ & _ & _ & ->). exact HK. }
  eexists _, _. split; [|split].
  - apply (C130_value4 rs M Ms Full p0 p1 p2 p E (x 0%nat) (x 1%nat) (x 2%nat) (x 3%nat) F HM HBB); try lra; auto.
    + rewrite <- P0. apply Hx. lia.
    + rewrite <- P1. apply Hx. lia.
    + rewrite <- P2. apply Hx. lia.
    + apply Hx. lia.
  - apply (C130_value4 rs' M' Ms' Full _ _ _ p' E' (x (sg 0%nat)) (x (sg 1%nat)) (x (sg 2%nat)) (x (sg 3%nat)) (- IZR (side (plg (rs (sg 0%nat)))) * F) HM').
    + exact HB.
    + pose proof (Hp (sg 0%nat) (HL 0%nat ltac:(lia))). lra.
    + rewrite O0. apply Hx, HL. lia.
    + rewrite O1. apply Hx, HL. lia.
    + rewrite O2. apply Hx, HL. lia.
    + rewrite O3, P3'. apply Hx, HL. lia.
    + exact HF'.
  - destruct (Req_EM_T (K M) 0) as [_|]; [|contradiction]. destruct (Req_EM_T (K M') 0) as [_|]; [|contradiction].
    assert (HD : map (fun M => Dfun p' E' (masses_of rs') (K1 M) (K2 M) (order M) (sides_of rs')) (M' :: Ms') =
                 map (fun M => Dfun p E (masses_of rs) (K1 M) (K2 M) (order M) (sides_of rs)) (M :: Ms)).
    { set (l := M :: Ms) in *. set (l' := M' :: Ms') in *. clearbody l l'. clear HK HK'. induction HR as [|A B l l' H1 H2 IH]; cbn [map]; [reflexivity|]. f_equal; [|exact IH].
      apply (Dfun_relabelled sg A B p E (masses_of rs) p' E' (masses_of rs') (sides_of rs) (sides_of rs') (- side (plg (rs (sg 0%nat))))); auto.
      - intros k Hk. left. now apply Hp.
      - destruct (Hs (sg 0%nat) (HL 0%nat ltac:(lia))) as [-> | ->]; auto.
      - intros k Hk. destruct (HPE k Hk) as (A1 & A2). destruct (HV k Hk) as (A3 & _ & _ & A4). repeat split; auto. }
    rewrite HD. set (S := fold_right Rplus 0 _).
    pose proof (Hp (sg 0%nat) (HL 0%nat ltac:(lia))) as R0. pose proof (Hp (sg 1%nat) (HL 1%nat ltac:(lia))) as R1. pose proof (Hp (sg 2%nat) (HL 2%nat ltac:(lia))) as R2.
    rewrite !speed_pos by lra. rewrite M0, M1, M2, <- P0, <- P1, <- P2.
    rewrite <- !HE by (try (apply HL); lia).
    assert (EP : forall k, (k < 4)%nat -> 0 < E k) by (intros k Hk; rewrite HE by exact Hk; pose proof (energy_ge (p k) (mass (rs k)) (Rlt_le _ _ (Hp k Hk))); pose proof (Hp k Hk); lra).
    pose proof (EP (sg 0%nat) (HL 0%nat ltac:(lia))). pose proof (EP (sg 1%nat) (HL 1%nat ltac:(lia))). pose proof (EP (sg 2%nat) (HL 2%nat ltac:(lia))).
    pose proof (EP 0%nat ltac:(lia)). pose proof (EP 1%nat ltac:(lia)). pose proof (EP 2%nat ltac:(lia)).
    unfold per_event4. field. repeat split; lra.
Qed.
Print Assumptions C135_four_particles.
Definition swap01 (n : nat) : nat := match n with O => 1%nat | 1%nat => 0%nat | n => n end.
Definition scatter (n : nat) : participant :=
  match n with 0%nat | 1%nat => mkParticipant 0 (mkLeg (-1) 1) (fun _ => Ok 1) | _ => mkParticipant 0 (mkLeg 1 1) (fun _ => Ok 0) end.
Lemma scatter_seen : seen_from scatter scatter swap01 4.
Proof. intros [|[|[|[|k]]]] Hk; try lia; repeat split; reflexivity. Qed.
Lemma swap01_perm : Permutation [swap01 0; swap01 1; swap01 2; swap01 3]%nat [0; 1; 2; 3]%nat.
Proof. cbn. apply perm_swap. Qed.
Example C135_four_ex : relabelled swap01 (mkM (0, 2, 1, 3)%nat 1 0 0) (mkM (1, 2, 0, 3)%nat 1 0 0) /\ seen_from scatter scatter swap01 4 /\ masses_ok scatter /\ signed scatter 4.
Proof.
  split; [unfold relabelled; cbn; repeat split; lia|]. split; [exact scatter_seen|]. split; [intros [|[|k]]; cbn; lra|].
  intros [|[|[|[|k]]]] Hk; try lia; cbn; auto.
Qed.

(* C136: with a constant squared amplitude the weight of the event depends on who
   looks at it *)
Lemma scatter_momenta : exists p E, momenta4 scatter 1 2 (3 / 2) = Some (p, E) /\ p 0%nat = 1 /\ p 1%nat = 2 /\ p 2%nat = 3 / 2 /\ p 3%nat = 3 / 2.
Proof.
  unfold momenta4. cbv zeta. unfold masses_of. cbn [scatter mass sides_of plg side].
  rewrite !energy_zero by lra. unfold sides_of. cbn [scatter plg side].
  destruct (Rlt_dec _ _) as [X|X]; [lra|]. eexists _, _. split; [reflexivity|]. cbv beta iota.
  split; [reflexivity|]. split; [reflexivity|]. split; [reflexivity|].
  match goal with |- sqrt ?a = _ => replace a with ((3 / 2) * (3 / 2)) by field end. apply sqrt_square. lra.
Qed.
Theorem C136_constant_amplitude_refuted : exists rs rs' M M' sg p0 p1 p2 p E v w, masses_ok rs /\ signed rs 4 /\ side (plg (rs 0%nat)) = (-1)%Z /\
  Permutation [sg 0%nat; sg 1%nat; sg 2%nat; sg 3%nat] [0; 1; 2; 3]%nat /\ seen_from rs rs' sg 4 /\ relabelled sg M M' /\ 0 < K M /\
  momenta4 rs p0 p1 p2 = Some (p, E) /\ p 0%nat = p0 /\ p 1%nat = p1 /\ p 2%nat = p2 /\ (forall k, (k < 4)%nat -> 0 < p k) /\
  integrand4 rs M [] Full p0 p1 p2 = Ok v /\ integrand4 rs' M' [] Full (p (sg 0%nat)) (p (sg 1%nat)) (p (sg 2%nat)) = Ok w /\
  per_event4 w (p (sg 0%nat)) (p (sg 1%nat)) (p (sg 2%nat)) (E (sg 0%nat)) (E (sg 1%nat)) (E (sg 2%nat)) <>
  - IZR (side (plg (rs (sg 0%nat)))) * per_event4 v p0 p1 p2 (E 0%nat) (E 1%nat) (E 2%nat).
Proof.
  destruct scatter_momenta as (p & E & HM & P0 & P1 & P2 & P3).
  destruct C135_four_ex as (_ & _ & Hm & Hs).
  destruct (momenta4_seen scatter scatter swap01 1 2 (3 / 2) p E Hm Hs swap01_perm scatter_seen ltac:(lra) ltac:(lra) ltac:(lra) HM) as (p' & E' & HM' & HPE).
  destruct (C130_momenta4 _ _ _ _ _ _ Hm Hs HM) as (_ & _ & _ & _ & HE & _).
  assert (Hp : forall k, (k < 4)%nat -> 0 < p k) by (intros [|[|[|[|k]]]] Hk; try lia; lra).
  assert (HEv : E 0%nat = 1 /\ E 1%nat = 2 /\ E 2%nat = 3 / 2).
  { rewrite !HE by lia. rewrite P0, P1, P2. cbn [scatter mass]. rewrite !energy_zero by lra. auto. }
  destruct HEv as (E0 & E1 & E2).
  assert (HEk : forall k, (k < 4)%nat -> mass (scatter k) <= E k) by (intros k Hk; rewrite HE by exact Hk; apply energy_ge_m).
  assert (HB : in_bounds4 p E (masses_of scatter) = true).
  { apply C61_four_particle_cutoff; [intros k Hk; left; auto|]. rewrite P0, P1, P2, P3. split; [apply HEk; lia|]. lra. }
  assert (HB' : in_bounds4 p' E' (masses_of scatter) = true).
  { rewrite <- HB. apply (in_bounds4_seen swap01); auto using swap01_perm.
    - intros k Hk. left. auto.
    - intros k Hk. now apply HPE.
    - apply HEk. lia.
    - destruct (HPE 3%nat ltac:(lia)) as (_ & ->). apply (HEk 3%nat). lia. }
  set (M := mkM (0, 1, 2, 3)%nat 0 0 1).
  assert (HF : functional Full [plg (scatter 0%nat); plg (scatter 1%nat); plg (scatter 2%nat); plg (scatter 3%nat)] [1; 1; 0; 0] = Ok (-1)).
  { pose proof (C50_full_is_gain_minus_loss (plg (scatter 0%nat)) 1 [plg (scatter 1%nat); plg (scatter 2%nat); plg (scatter 3%nat)] [1; 0; 0] eq_refl) as X.
    rewrite X; [|repeat (apply Forall_cons; [lra|]); apply Forall_nil|reflexivity].
    unfold gain, loss. cbn. f_equal. ring. }
  exists scatter, scatter, M, (mkM (1, 0, 2, 3)%nat 0 0 1), swap01, 1, 2, (3 / 2), p, E. eexists _, _.
  split; [exact Hm|]. split; [exact Hs|]. split; [reflexivity|]. split; [exact swap01_perm|]. split; [exact scatter_seen|].
  split; [unfold relabelled, M; cbn; repeat split; lia|]. split; [cbn; lra|]. split; [exact HM|].
  split; [exact P0|]. split; [exact P1|]. split; [exact P2|]. split; [exact Hp|].
  split; [|split].
  - apply (C130_value4 scatter M [] Full 1 2 (3 / 2) p E 1 1 0 0 (-1) HM HB); try reflexivity; [lra|exact HF].
  - apply (C130_value4 scatter _ [] Full _ _ _ p' E' 1 1 0 0 (-1) HM' HB'); try reflexivity; [cbn [swap01]; lra|exact HF].
  - cbn [swap01 M K]. destruct (Req_EM_T 1 0) as [|_]; [lra|]. cbn [scatter mass]. unfold speed.
    destruct (Req_EM_T 0 0) as [_|]; [|lra]. cbn [scatter plg side]. unfold per_event4. rewrite E0, E1, E2, P0, P1, P2. lra.
Qed.
Print Assumptions C136_constant_amplitude_refuted.

(* what a constant amplitude gives: the weights of two participants differ by the
   ratio of their p E *)
Theorem C136_constant_amplitude_weight : forall rs M Ms p0 p1 p2 p E F x0 x1 x2 x3, K M <> 0 -> masses_ok rs -> signed rs 4 ->
  momenta4 rs p0 p1 p2 = Some (p, E) -> in_bounds4 p E (masses_of rs) = true -> 0 < p0 -> 0 < p1 -> 0 < p2 ->
  occ (rs 0%nat) p0 = Ok x0 -> occ (rs 1%nat) p1 = Ok x1 -> occ (rs 2%nat) p2 = Ok x2 -> occ (rs 3%nat) (p 3%nat) = Ok x3 ->
  functional Full [plg (rs 0%nat); plg (rs 1%nat); plg (rs 2%nat); plg (rs 3%nat)] [x0; x1; x2; x3] = Ok F ->
  exists v, integrand4 rs M Ms Full p0 p1 p2 = Ok v /\ per_event4 v p0 p1 p2 (E 0%nat) (E 1%nat) (E 2%nat) = K M * F * (p0 * E 0%nat).
Proof.
  intros rs M Ms p0 p1 p2 p E F x0 x1 x2 x3 HK Hm Hs HM HB Q0 Q1 Q2 O0 O1 O2 O3 HF.
  destruct (C130_momenta4 rs p0 p1 p2 p E Hm Hs HM) as (P0 & P1 & P2 & _ & HE & _).
  eexists. split; [apply (C130_value4 rs M Ms Full p0 p1 p2 p E x0 x1 x2 x3 F HM HB); try lra; auto|].
  destruct (Req_EM_T (K M) 0) as [|_]; [contradiction|]. rewrite !speed_pos by lra. rewrite !HE by lia. rewrite P0, P1, P2.
  assert (EP : forall q m, 0 < q -> 0 < energy q m) by (intros q m Hq; pose proof (energy_ge q m ltac:(lra)); lra).
  pose proof (EP p0 (mass (rs 0%nat)) Q0). pose proof (EP p1 (mass (rs 1%nat)) Q1). pose proof (EP p2 (mass (rs 2%nat)) Q2).
  unfold per_event4. field. repeat split; lra.
Qed.
Print Assumptions C136_constant_amplitude_weight.
