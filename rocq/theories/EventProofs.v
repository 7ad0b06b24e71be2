(* The weight of one collision event, seen from different participants. *)
From Coq Require Import Reals Lra Lia Psatz Permutation.
From Verif Require Import Base FunctionalModel FunctionalProofs FunctionalProps DsModel DsProofs BoundsModel BoundsProofs BoundsProps Bounds2Props.
Open Scope R_scope.
Local Notation length := List.length.

Lemma sum_perm (l l' : list R) : Permutation l l' -> fold_right Rplus 0 l = fold_right Rplus 0 l'.
Proof. induction 1; cbn; try lra. Qed.
Lemma mul_perm (l l' : list R) : Permutation l l' -> fold_right Rmult 1 l = fold_right Rmult 1 l'.
Proof. induction 1; cbn; try nra. Qed.
Lemma speed_pos p m : 0 < p -> speed p m = p / energy p m.
Proof. intros Hp. unfold speed. destruct (Req_EM_T m 0) as [->|]; [|reflexivity]. rewrite energy_zero by lra. field. lra. Qed.

(* rs' is the reaction rs listed in the order sg, with the sides chosen so that
   its first participant is on the left *)
Definition seen_from (rs rs' : nat -> participant) (sg : nat -> nat) (n : nat) : Prop :=
  forall k, (k < n)%nat -> mass (rs' k) = mass (rs (sg k)) /\ (forall q, occ (rs' k) q = occ (rs (sg k)) q) /\
  eta (plg (rs' k)) = eta (plg (rs (sg k))) /\ side (plg (rs' k)) = (- side (plg (rs (sg 0%nat))) * side (plg (rs (sg k))))%Z.

Lemma perm_lt3 sg : Permutation [sg 0%nat; sg 1%nat; sg 2%nat] [0; 1; 2]%nat -> forall k, (k < 3)%nat -> (sg k < 3)%nat.
Proof.
  intros H k Hk. assert (I : In (sg k) [0; 1; 2]%nat).
  { apply (Permutation_in _ H). destruct k as [|[|[|k]]]; cbn; try tauto; lia. }
  cbn in I. lia.
Qed.
Lemma perm_lt4 sg : Permutation [sg 0%nat; sg 1%nat; sg 2%nat; sg 3%nat] [0; 1; 2; 3]%nat -> forall k, (k < 4)%nat -> (sg k < 4)%nat.
Proof.
  intros H k Hk. assert (I : In (sg k) [0; 1; 2; 3]%nat).
  { apply (Permutation_in _ H). destruct k as [|[|[|[|k]]]]; cbn; try tauto; lia. }
  cbn in I. lia.
Qed.

Lemma energy_root p m : 0 <= p -> sqrt (energy p m ^ 2 - m ^ 2) = p.
Proof. intros. rewrite energy_sq. replace (p ^ 2 + m ^ 2 - m ^ 2) with (p ^ 2) by ring. now apply sqrt_pow2. Qed.

Lemma momenta3_seen rs rs' sg p0 p1 p E : masses_ok rs -> signed rs 3 ->
  Permutation [sg 0%nat; sg 1%nat; sg 2%nat] [0; 1; 2]%nat -> seen_from rs rs' sg 3 ->
  0 <= p0 -> 0 <= p1 -> momenta3 rs p0 p1 = Some (p, E) ->
  exists p' E', momenta3 rs' (p (sg 0%nat)) (p (sg 1%nat)) = Some (p', E') /\ forall k, (k < 3)%nat -> p' k = p (sg k) /\ E' k = E (sg k).
Proof.
  intros Hm Hs HP HV H0 H1 HM. destruct (C130_momenta3 rs p0 p1 p E Hm Hs HM) as (P0 & P1 & P2 & HE & HC).
  pose proof (perm_lt3 sg HP) as HL.
  assert (Hp : forall k, (k < 3)%nat -> 0 <= p k) by (intros [|[|[|k]]] Hk; try lia; lra).
  assert (HS : IZR (side (plg (rs (sg 0%nat)))) * E (sg 0%nat) + IZR (side (plg (rs (sg 1%nat)))) * E (sg 1%nat) + IZR (side (plg (rs (sg 2%nat)))) * E (sg 2%nat) = 0).
  { pose proof (sum_perm _ _ (Permutation_map (fun k => IZR (side (plg (rs k))) * E k) HP)) as X. cbn [map fold_right] in X. lra. }
  destruct (HV 0%nat ltac:(lia)) as (M0 & _ & _ & S0). destruct (HV 1%nat ltac:(lia)) as (M1 & _ & _ & S1). destruct (HV 2%nat ltac:(lia)) as (M2 & _ & _ & S2).
  assert (HE2 : (0 + IZR (sides_of rs' 0%nat) * energy (p (sg 0%nat)) (mass (rs' 0%nat)) + IZR (sides_of rs' 1%nat) * energy (p (sg 1%nat)) (mass (rs' 1%nat))) * - IZR (sides_of rs' 2%nat) = E (sg 2%nat)).
  { unfold sides_of. rewrite S0, S1, S2, M0, M1, <- !HE by (apply HL; lia). rewrite !mult_IZR, !opp_IZR.
    set (t := IZR (side (plg (rs (sg 0%nat))))) in *. set (a := E (sg 0%nat)) in *. set (b := IZR (side (plg (rs (sg 1%nat))))) in *.
    set (c := E (sg 1%nat)) in *. set (e := E (sg 2%nat)) in *. set (d := IZR (side (plg (rs (sg 2%nat))))) in *.
    assert (T : t * t = 1) by (unfold t; destruct (Hs (sg 0%nat) ltac:(apply HL; lia)) as [-> | ->]; lra).
    assert (D : d * d = 1) by (unfold d; destruct (Hs (sg 2%nat) ltac:(apply HL; lia)) as [-> | ->]; lra).
    replace ((0 + - t * t * a + - t * b * c) * - (- t * d)) with (- (t * t) * d * (t * a + b * c)) by ring.
    replace (t * a + b * c) with (- (d * e)) by lra. rewrite T. replace (- (1) * d * - (d * e)) with (d * d * e) by ring. rewrite D. ring. }
  unfold momenta3. cbv zeta. unfold masses_of. rewrite HE2.
  destruct (Rlt_dec _ _) as [X|X].
  - exfalso. rewrite M2, HE in X by (apply HL; lia). pose proof (energy_ge_m (p (sg 2%nat)) (mass (rs (sg 2%nat)))). lra.
  - eexists _, _. split; [reflexivity|]. intros [|[|[|k]]] Hk; try lia; cbv beta iota; split; try reflexivity.
    + rewrite M0. symmetry. apply HE, HL. lia.
    + rewrite M1. symmetry. apply HE, HL. lia.
    + rewrite M2, HE by (apply HL; lia). apply energy_root, Hp, HL. lia.
Qed.

(* the functional of the event *)
Lemma full_seen (rs rs' : nat -> participant) sg (x : nat -> R) idx : signed rs (length idx) ->
  (forall k, In k idx <-> (k < length idx)%nat) -> Permutation (map sg idx) idx -> seen_from rs rs' sg (length idx) ->
  (forall k, (k < length idx)%nat -> 0 <= x k) -> side (plg (rs 0%nat)) = (-1)%Z -> (exists r, idx = 0%nat :: r) ->
  exists F, functional Full (map (fun k => plg (rs k)) idx) (map x idx) = Ok F /\
  functional Full (map (fun k => plg (rs' k)) idx) (map (fun k => x (sg k)) idx) = Ok (- IZR (side (plg (rs (sg 0%nat)))) * F).
Proof.
  intros Hs Hidx HP HV Hx HS0 (r & Hr).
  assert (Hlt : forall k, In k idx -> (sg k < length idx)%nat).
  { intros k Hk. apply Hidx. apply (Permutation_in _ HP). apply in_map. exact Hk. }
  assert (H0 : (0 < length idx)%nat) by (rewrite Hr; cbn; lia).
  assert (I0 : In 0%nat idx) by (now apply Hidx).
  assert (HS0' : side (plg (rs' 0%nat)) = (-1)%Z).
  { destruct (HV 0%nat H0) as (_ & _ & _ & ->). destruct (Hs (sg 0%nat) (Hlt _ I0)) as [-> | ->]; reflexivity. }
  assert (Hcomb : forall {A B} (f : nat -> A) (g : nat -> B) l, combine (map f l) (map g l) = map (fun k => (f k, g k)) l).
  { intros A B f g l. induction l; cbn; [reflexivity|]. now rewrite IHl. }
  assert (NX : forall l, (forall k, In k l -> In k idx) -> nonneg (map x l)).
  { intros l Hl. apply Forall_forall. intros y Hy. apply in_map_iff in Hy. destruct Hy as (k & <- & Hk). apply Hx, Hidx, Hl, Hk. }
  assert (NX' : forall l, (forall k, In k l -> In k idx) -> nonneg (map (fun k => x (sg k)) l)).
  { intros l Hl. apply Forall_forall. intros y Hy. apply in_map_iff in Hy. destruct Hy as (k & <- & Hk). apply Hx, Hlt, Hl, Hk. }
  assert (Hleg : forall k, In k idx -> plg (rs' k) = mkLeg (- side (plg (rs (sg 0%nat))) * side (plg (rs (sg k)))) (eta (plg (rs (sg k))))).
  { intros k Hk. apply Hidx in Hk. destruct (HV k Hk) as (_ & _ & A & B). destruct (plg (rs' k)); cbn in *. now subst. }
  assert (HSr : forall k, In k r -> In k idx) by (intros; rewrite Hr; now right).
  pose proof (full_value (plg (rs 0%nat)) (x 0%nat) (map (fun k => plg (rs k)) r) (map x r)) as FV.
  rewrite Hr. cbn [map].
  destruct (Hs (sg 0%nat) (Hlt _ I0)) as [E1|E1].
  - (* the other side *)
    destruct (C54_forward_and_backward_cancel (plg (rs 0%nat)) (x 0%nat) (map (fun k => plg (rs k)) r) (map x r)
      (plg (rs' 0%nat)) (x (sg 0%nat)) (map (fun k => plg (rs' k)) r) (map (fun k => x (sg k)) r)) as (F & A & B);
      try (now rewrite !map_length); auto.
    + change (Permutation (combine (map (fun k => plg (rs' k)) (0%nat :: r)) (map (fun k => x (sg k)) (0%nat :: r)))
        (map (fun a => (flip (fst a), snd a)) (combine (map (fun k => plg (rs k)) (0%nat :: r)) (map x (0%nat :: r))))).
      rewrite <- Hr, !Hcomb, map_map. cbn [fst snd].
      assert (EQ : map (fun k => (plg (rs' k), x (sg k))) idx = map (fun j => (flip (plg (rs j)), x j)) (map sg idx)).
      { rewrite map_map. apply map_ext_in. intros k Hk. rewrite (Hleg k Hk), E1. reflexivity. }
      rewrite EQ. apply Permutation_map. exact HP.
    + exists F. split; [exact A|]. rewrite B, E1. f_equal. lra.
  - exists (gain (combine (plg (rs 0%nat) :: map (fun k => plg (rs k)) r) (x 0%nat :: map x r)) - loss (combine (plg (rs 0%nat) :: map (fun k => plg (rs k)) r) (x 0%nat :: map x r))).
    split; [apply FV; auto; now rewrite !map_length|].
    rewrite <- (C54_same_side_participants_agree (plg (rs 0%nat)) (x 0%nat) (map (fun k => plg (rs k)) r) (map x r)
      (plg (rs' 0%nat)) (x (sg 0%nat)) (map (fun k => plg (rs' k)) r) (map (fun k => x (sg k)) r)); try (now rewrite !map_length); auto.
    + rewrite FV; auto; [|now rewrite !map_length]. rewrite E1. f_equal. lra.
    + change (Permutation (combine (map (fun k => plg (rs' k)) (0%nat :: r)) (map (fun k => x (sg k)) (0%nat :: r)))
        (combine (map (fun k => plg (rs k)) (0%nat :: r)) (map x (0%nat :: r)))).
      rewrite <- Hr, !Hcomb.
      assert (EQ : map (fun k => (plg (rs' k), x (sg k))) idx = map (fun j => (plg (rs j), x j)) (map sg idx)).
      { rewrite map_map. apply map_ext_in. intros k Hk. rewrite (Hleg k Hk), E1. destruct (plg (rs (sg k))) as [sd et]. cbn [side eta]. replace (- (-1) * sd)%Z with sd by lia. reflexivity. }
      rewrite EQ. apply Permutation_map. exact HP.
Qed.

Lemma momenta4_seen rs rs' sg p0 p1 p2 p E : masses_ok rs -> signed rs 4 ->
  Permutation [sg 0%nat; sg 1%nat; sg 2%nat; sg 3%nat] [0; 1; 2; 3]%nat -> seen_from rs rs' sg 4 ->
  0 <= p0 -> 0 <= p1 -> 0 <= p2 -> momenta4 rs p0 p1 p2 = Some (p, E) ->
  exists p' E', momenta4 rs' (p (sg 0%nat)) (p (sg 1%nat)) (p (sg 2%nat)) = Some (p', E') /\ forall k, (k < 4)%nat -> p' k = p (sg k) /\ E' k = E (sg k).
Proof.
  intros Hm Hs HP HV H0 H1 H2 HM. destruct (C130_momenta4 rs p0 p1 p2 p E Hm Hs HM) as (P0 & P1 & P2 & P3 & HE & HC).
  pose proof (perm_lt4 sg HP) as HL.
  assert (Hp : forall k, (k < 4)%nat -> 0 <= p k) by (intros [|[|[|[|k]]]] Hk; try lia; lra).
  assert (HS : IZR (side (plg (rs (sg 0%nat)))) * E (sg 0%nat) + IZR (side (plg (rs (sg 1%nat)))) * E (sg 1%nat) + IZR (side (plg (rs (sg 2%nat)))) * E (sg 2%nat) + IZR (side (plg (rs (sg 3%nat)))) * E (sg 3%nat) = 0).
  { pose proof (sum_perm _ _ (Permutation_map (fun k => IZR (side (plg (rs k))) * E k) HP)) as X. cbn [map fold_right] in X. lra. }
  destruct (HV 0%nat ltac:(lia)) as (M0 & _ & _ & S0). destruct (HV 1%nat ltac:(lia)) as (M1 & _ & _ & S1). destruct (HV 2%nat ltac:(lia)) as (M2 & _ & _ & S2). destruct (HV 3%nat ltac:(lia)) as (M3 & _ & _ & S3).
  assert (HE2 : (0 + IZR (sides_of rs' 0%nat) * energy (p (sg 0%nat)) (mass (rs' 0%nat)) + IZR (sides_of rs' 1%nat) * energy (p (sg 1%nat)) (mass (rs' 1%nat)) + IZR (sides_of rs' 2%nat) * energy (p (sg 2%nat)) (mass (rs' 2%nat))) * - IZR (sides_of rs' 3%nat) = E (sg 3%nat)).
  { unfold sides_of. rewrite S0, S1, S2, S3, M0, M1, M2, <- !HE by (apply HL; lia). rewrite !mult_IZR, !opp_IZR.
    set (t := IZR (side (plg (rs (sg 0%nat))))) in *. set (a := E (sg 0%nat)) in *. set (b := IZR (side (plg (rs (sg 1%nat))))) in *.
    set (c := E (sg 1%nat)) in *. set (g := E (sg 2%nat)) in *. set (h := IZR (side (plg (rs (sg 2%nat))))) in *.
    set (e := E (sg 3%nat)) in *. set (d := IZR (side (plg (rs (sg 3%nat))))) in *.
    assert (T : t * t = 1) by (unfold t; destruct (Hs (sg 0%nat) ltac:(apply HL; lia)) as [-> | ->]; lra).
    assert (D : d * d = 1) by (unfold d; destruct (Hs (sg 3%nat) ltac:(apply HL; lia)) as [-> | ->]; lra).
    replace ((0 + - t * t * a + - t * b * c + - t * h * g) * - (- t * d)) with (- (t * t) * d * (t * a + b * c + h * g)) by ring.
    replace (t * a + b * c + h * g) with (- (d * e)) by lra. rewrite T. replace (- (1) * d * - (d * e)) with (d * d * e) by ring. rewrite D. ring. }
  unfold momenta4. cbv zeta. unfold masses_of. rewrite HE2.
  destruct (Rlt_dec _ _) as [X|X].
  - exfalso. rewrite M3, HE in X by (apply HL; lia). pose proof (energy_ge_m (p (sg 3%nat)) (mass (rs (sg 3%nat)))). lra.
  - eexists _, _. split; [reflexivity|]. intros [|[|[|[|k]]]] Hk; try lia; cbv beta iota; split; try reflexivity.
    + rewrite M0. symmetry. apply HE, HL. lia.
    + rewrite M1. symmetry. apply HE, HL. lia.
    + rewrite M2. symmetry. apply HE, HL. lia.
    + rewrite M3, HE by (apply HL; lia). apply energy_root, Hp, HL. lia.
Qed.

(* the matrix element M' of the relabelled reaction names the participants M
   names *)
Definition relabelled (sg : nat -> nat) (M M' : matrix_element) : Prop :=
  let '(i, j, k, l) := order M in let '(i', j', k', l') := order M' in
  (sg i', sg j', sg k', sg l') = (i, j, k, l) /\ ((i' < 4)%nat /\ (j' < 4)%nat /\ (k' < 4)%nat /\ (l' < 4)%nat) /\
  K1 M' = K1 M /\ K2 M' = K2 M /\ K M' = K M.

Lemma Dfun_relabelled sg M M' (p E m p' E' m' : nat -> R) (sides sides' : nat -> Z) (t : Z) :
  Permutation [sg 0%nat; sg 1%nat; sg 2%nat; sg 3%nat] [0; 1; 2; 3]%nat -> relabelled sg M M' ->
  (forall k, (k < 4)%nat -> 0 <= p k) -> (t = 1 \/ t = -1)%Z ->
  (forall k, (k < 4)%nat -> p' k = p (sg k) /\ E' k = E (sg k) /\ m' k = m (sg k) /\ sides' k = (t * sides (sg k))%Z) ->
  Dfun p' E' m' (K1 M') (K2 M') (order M') sides' = Dfun p E m (K1 M) (K2 M) (order M) sides.
Proof.
  intros HP HR Hp Ht HV. unfold relabelled in HR. destruct (order M) as [[[i j] k] l], (order M') as [[[i' j'] k'] l'].
  destruct HR as (HO & (Li & Lj & Lk & Ll) & -> & -> & _).
  assert (sg i' = i /\ sg j' = j /\ sg k' = k /\ sg l' = l) as (<- & <- & <- & <-) by (inversion HO; auto).
  unfold Dfun.
  destruct (HV i' Li) as (-> & -> & -> & ->). destruct (HV j' Lj) as (-> & -> & -> & ->).
  destruct (HV k' Lk) as (-> & -> & _ & ->). destruct (HV l' Ll) as (-> & -> & _ & ->).
  destruct (HV 0%nat ltac:(lia)) as (-> & -> & _). destruct (HV 1%nat ltac:(lia)) as (-> & -> & _).
  destruct (HV 2%nat ltac:(lia)) as (-> & -> & _). destruct (HV 3%nat ltac:(lia)) as (-> & -> & _).
  pose proof (Permutation_map p (Permutation_sym HP)) as HPP. cbn [map] in HPP.
  rewrite <- (D1_perm _ _ _ _ _ _ _ _ HPP).
  rewrite <- (D3_perm _ _ _ _ _ _ _ _ (Hp 0%nat ltac:(lia)) (Hp 1%nat ltac:(lia)) (Hp 2%nat ltac:(lia)) (Hp 3%nat ltac:(lia)) HPP).
  pose proof (mul_perm _ _ (Permutation_map E HP)) as HEE. cbn [map fold_right] in HEE.
  replace (E (sg 0%nat) * E (sg 1%nat) * E (sg 2%nat) * E (sg 3%nat)) with (E 0%nat * E 1%nat * E 2%nat * E 3%nat) by lra.
  assert (T2 : forall a b, (t * a * (t * b) = a * b)%Z) by (intros; destruct Ht as [-> | ->]; ring).
  rewrite !T2. replace (sides (sg i') * sides (sg j') * (t * sides (sg k')) * (t * sides (sg l')))%Z
    with (sides (sg i') * sides (sg j') * (t * sides (sg k') * (t * sides (sg l'))))%Z by ring.
  rewrite T2. replace (sides (sg i') * sides (sg j') * (sides (sg k') * sides (sg l')))%Z
    with (sides (sg i') * sides (sg j') * sides (sg k') * sides (sg l'))%Z by ring. reflexivity.
Qed.

Lemma polygon_seen sg (p : nat -> R) : Permutation [sg 0%nat; sg 1%nat; sg 2%nat; sg 3%nat] [0; 1; 2; 3]%nat ->
  let S := p 0%nat + p 1%nat + p 2%nat + p 3%nat in
  p (sg 0%nat) + p (sg 1%nat) + p (sg 2%nat) + p (sg 3%nat) = S /\
  ((forall k, (k < 4)%nat -> 2 * p k <= S) <-> forall k, (k < 4)%nat -> 2 * p (sg k) <= S).
Proof.
  intros HP S. split.
  - pose proof (sum_perm _ _ (Permutation_map p HP)) as X. cbn [map fold_right] in X. unfold S. lra.
  - split; intros H k Hk.
    + apply H. now apply (perm_lt4 sg HP).
    + assert (I : In k [sg 0%nat; sg 1%nat; sg 2%nat; sg 3%nat]).
      { apply (Permutation_in _ (Permutation_sym HP)). destruct k as [|[|[|[|k]]]]; cbn; try tauto; lia. }
      cbn in I. destruct I as [<-|[<-|[<-|[<-|[]]]]]; apply H; lia.
Qed.
Lemma in_bounds4_seen sg (p E m p' E' m' : nat -> R) : Permutation [sg 0%nat; sg 1%nat; sg 2%nat; sg 3%nat] [0; 1; 2; 3]%nat ->
  (forall k, (k < 4)%nat -> 0 <= p k) -> (forall k, (k < 4)%nat -> p' k = p (sg k)) -> m 3%nat <= E 3%nat -> m' 3%nat <= E' 3%nat ->
  in_bounds4 p' E' m' = in_bounds4 p E m.
Proof.
  intros HP Hp HV H3 H3'. pose proof (perm_lt4 sg HP) as HL. destruct (polygon_seen sg p HP) as (HS & HI). cbv zeta in HI.
  assert (Hp' : forall k, (k < 4)%nat -> 0 <= p' k) by (intros k Hk; rewrite HV by exact Hk; apply Hp, HL, Hk).
  assert (G : in_bounds4 p' E' m' = true <-> in_bounds4 p E m = true).
  { rewrite (C61_four_particle_cutoff p' E' m' Hp'), (C61_four_particle_cutoff p E m Hp).
    rewrite (HV 0%nat), (HV 1%nat), (HV 2%nat), (HV 3%nat) by lia.
    assert (A : forall a b c d : R, (a <= b + c + d /\ b <= c + d + a /\ c <= d + a + b /\ d <= a + b + c) <->
      (2 * a <= a + b + c + d /\ 2 * b <= a + b + c + d /\ 2 * c <= a + b + c + d /\ 2 * d <= a + b + c + d)) by (intros; lra).
    rewrite !A. rewrite HS.
    assert (B : forall (f : nat -> R) X, (2 * f 0%nat <= X /\ 2 * f 1%nat <= X /\ 2 * f 2%nat <= X /\ 2 * f 3%nat <= X) <-> forall k, (k < 4)%nat -> 2 * f k <= X).
    { intros f X. split; [|intros Q; repeat split; apply Q; lia]. intros (Q0 & Q1 & Q2 & Q3) [|[|[|[|k]]]] Hk; try lia; assumption. }
    rewrite (B (fun k => p (sg k))), (B p), <- HI. tauto. }
  destruct (in_bounds4 p' E' m'), (in_bounds4 p E m); try reflexivity; [symmetry; now apply G|now apply G].
Qed.
