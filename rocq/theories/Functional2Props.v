(* C50, C65: further statements about the collision functional and the values
   handed to the time stepping, added after mutation tests. *)
From Coq Require Import Reals Lra.
From Verif Require Import Base FunctionalModel FunctionalProofs.
Open Scope R_scope.

(* the phase-space factor of one participant: occupied on the side the reaction
   starts from, Pauli-blocked or Bose-enhanced on the other *)
Definition factor (own : Z) (l : leg) (x : R) : R := if (side l =? own)%Z then x else 1 - eta l * x.
(* the product over all participants but the one at a given position *)
Definition product_without (own skip : Z) (ls : list leg) (f : list R) : R :=
  fold_right Rmult 1 (map (fun ilx => if (Z.of_nat (fst ilx) =? skip)%Z then 1 else factor own (fst (snd ilx)) (snd (snd ilx)))
    (combine (seq 0 (length ls)) (combine ls f))).

Lemma F_loop_skip own skip : forall ls f i temp, length ls = length f -> Forall (fun x => 0 <= x) f ->
  F_loop own skip (Z.of_nat i) ls f temp = Ok (temp *
    fold_right Rmult 1 (map (fun ilx => if (Z.of_nat (fst ilx) =? skip)%Z then 1 else factor own (fst (snd ilx)) (snd (snd ilx)))
    (combine (seq i (length ls)) (combine ls f)))).
Proof.
  induction ls as [|l ls IH]; intros [|x f] i temp HL HN; cbn [length] in HL; try discriminate.
  - cbn. f_equal. ring.
  - inversion HN as [|? ? Hx Hf]; subst. cbn [F_loop length seq combine map fold_right fst snd].
    replace (Z.of_nat i + 1)%Z with (Z.of_nat (S i)) by lia.
    destruct (Z.of_nat i =? skip)%Z.
    + rewrite IH by (auto; lia). f_equal. ring.
    + destruct (Rlt_dec x 0) as [X|X]; [lra|]. rewrite IH by (auto; lia). f_equal. unfold factor. ring.
Qed.

Theorem C50_products : forall ls f skip, length ls = length f -> Forall (fun x => 0 <= x) f ->
  F_A ls f skip = Ok (- product_without (-1) skip ls f) /\ F_B ls f skip = Ok (product_without 1 skip ls f).
Proof.
  intros ls f skip HL HN. unfold F_A, F_B. change 0%Z with (Z.of_nat 0).
  rewrite !F_loop_skip by auto. unfold product_without. split; f_equal; ring.
Qed.
Print Assumptions C50_products.
Example C50_products_ex : product_without 1 2 [mkLeg (-1) 1; mkLeg (-1) (-1); mkLeg 1 1; mkLeg 1 (-1)] [1/4; 2; 1/3; 5] = (3/4) * 3 * 5.
Proof. unfold product_without, factor. cbn. lra. Qed.

(* C65: one-sided kinds. For a fast-decaying particle the integral comes as a
   pair (gain, relaxation rate), otherwise as one array; both describe the same
   rate of change, gain + relaxation rate * own occupation. *)
Theorem C65_one_sided : forall f I,
  (forall k, k = Decay \/ k = Ff_vacuum ->
     integrate4 k true f I = Pair 0 (I k) /\ integrate3 k true f I = Pair 0 (I k) /\
     integrate4 k false f I = One (I k * f) /\ integrate3 k false f I = One (I k * f)) /\
  (forall k, k = Creation \/ k = F1_vacuum ->
     integrate4 k true f I = Pair (I k) 0 /\ integrate3 k true f I = Pair (I k) 0 /\
     integrate4 k false f I = One (I k) /\ integrate3 k false f I = One (I k)).
Proof. intros f I. split; intros k [-> | ->]; repeat split. Qed.
Print Assumptions C65_one_sided.
Theorem C65_same_rate : forall k f I, In k [Decay; Ff_vacuum; Creation; F1_vacuum] ->
  exists a b, integrate4 k true f I = Pair a b /\ integrate3 k true f I = Pair a b /\
  integrate4 k false f I = One (a + b * f) /\ integrate3 k false f I = One (a + b * f).
Proof.
  intros k f I Hk. repeat (destruct Hk as [<-|Hk]); try contradiction; do 2 eexists; repeat split; cbn; f_equal; ring.
Qed.
Print Assumptions C65_same_rate.
Theorem C65_split_kinds : forall fast f I,
  integrate4 F1 fast f I = One (I F1) /\ integrate3 F1 fast f I = One (I F1) /\
  integrate4 Ff fast f I = One (I Ff * f) /\ integrate3 Ff fast f I = One (I Ff * f).
Proof. intros [|] f I; repeat split. Qed.
Print Assumptions C65_split_kinds.
Example C65_one_sided_ex : integrate4 Decay false (1/2) (fun _ => 6) = One 3.
Proof. rewrite (proj1 (proj2 (proj2 (proj1 (C65_one_sided (1/2) (fun _ => 6)) Decay (or_introl eq_refl))))). f_equal. lra. Qed.
