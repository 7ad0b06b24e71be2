(* C187 with rounding: the cache of trapezoidal.cpp hits in floating point *)
From Coq Require Import Reals Lra Psatz List PeanoNat Lia ZArith.
From Flocq Require Import Core.
From Verif Require Import TrapModel TrapProofs TrapFloatModel.
Import ListNotations.
Open Scope R_scope.

Lemma rnd_double x : rnd (x * 2) = rnd x * 2.
Proof.
  unfold rnd. destruct (Req_dec x 0) as [->|N]; [rewrite Rmult_0_l, round_0 by (apply valid_rnd_N); ring|].
  assert (E2 : 2 = bpow radix2 1) by (cbn; ring). rewrite E2.
  unfold round, F2R, scaled_mantissa, cexp. cbn [Fnum Fexp]. rewrite mag_mult_bpow by exact N.
  assert (EE : (FLX_exp 53 (mag radix2 x + 1) = FLX_exp 53 (mag radix2 x) + 1)%Z) by (unfold FLX_exp; lia). rewrite EE.
  rewrite bpow_plus. replace (x * bpow radix2 1 * bpow radix2 (- (FLX_exp 53 (mag radix2 x) + 1))) with (x * bpow radix2 (- FLX_exp 53 (mag radix2 x))).
  - ring.
  - rewrite Rmult_assoc, <- bpow_plus. do 2 f_equal. lia.
Qed.

Lemma step_half a b n : (2 <= n)%nat -> step_fl a b n = step_fl a b (2 * n - 1) * 2.
Proof.
  intros Hn. unfold step_fl. rewrite <- rnd_double. f_equal. replace (2 * n - 1 - 1)%nat with (2 * (n - 1))%nat by lia.
  rewrite mult_INR. replace (INR 2) with 2 by (cbn; ring). field. apply not_0_INR. lia.
Qed.
(* halving the step keeps the rounded abscissae *)
Theorem C187_rounded_nodes : forall a b n i, (2 <= n)%nat -> node_fl a b (2 * n - 1) (2 * i) = node_fl a b n i.
Proof.
  intros a b n i Hn. unfold node_fl. do 2 f_equal. f_equal. rewrite (step_half a b n Hn), mult_INR. replace (INR 2) with 2 by (cbn; ring). ring.
Qed.
Print Assumptions C187_rounded_nodes.

(* the abscissae of a sum of n points *)
Definition nodes_fl (a b : R) (n : nat) (x : R) : Prop := x = a \/ x = b \/ exists i, (0 < i < n - 1)%nat /\ x = node_fl a b n i.
Lemma nodes_sub a b n x : (2 <= n)%nat -> nodes_fl a b n x -> nodes_fl a b (2 * n - 1) x.
Proof.
  intros Hn [H|[H|(i & Hi & ->)]]; [now left|right; now left|]. right. right. exists (2 * i)%nat. split; [lia|]. symmetry. now apply C187_rounded_nodes.
Qed.

Lemma fold_cached_fl f g : forall l s c, valid f c ->
  let r := fold_left (fun '(s, c) i => let '(v, c) := cached f c (g i) in (rnd (s + v), c)) l (s, c) in
  fst r = fold_left (fun (s : R) (i : nat) => rnd (s + f (g i))) l s /\ valid f (snd r) /\
  (NoDup (keys c) -> NoDup (keys (snd r))) /\ forall k, In k (keys (snd r)) <-> In k (keys c) \/ exists i, In i l /\ k = g i.
Proof.
  induction l as [|i l IH]; intros s c H; cbn [fold_left].
  - cbn. split; [reflexivity|]. split; [exact H|]. split; [tauto|]. intros k. split; [tauto|]. intros [K|[j [[] _]]]. exact K.
  - destruct (cached_spec f c (g i) H) as (E & V & N & K). destruct (cached f c (g i)) as [v c']. cbn [fst snd] in *. subst v.
    destruct (IH (rnd (s + f (g i))) c' V) as (A & B & C & D). split; [exact A|]. split; [exact B|]. split; [auto|].
    intros k. rewrite D, K. split.
    + intros [[Q|Q]|[j [Q1 Q2]]]; [tauto|right; exists i; cbn; auto|right; exists j; cbn; auto].
    + intros [Q|[j [[->|Q1] Q2]]]; [tauto|tauto|right; exists j; auto].
Qed.
Lemma trapezium_fl_spec f a b n c : (2 <= n)%nat -> valid f c -> let r := trapezium_fl f a b n c in
  fst r = trapezium0_fl f a b n /\ valid f (snd r) /\ (NoDup (keys c) -> NoDup (keys (snd r))) /\
  forall k, In k (keys (snd r)) <-> In k (keys c) \/ nodes_fl a b n k.
Proof.
  intros Hn H. unfold trapezium_fl, trapezium0_fl. cbv zeta.
  destruct (cached_spec f c a H) as (E1 & V1 & N1 & K1). destruct (cached f c a) as [fa c1]. cbn [fst snd] in *. subst fa.
  destruct (cached_spec f c1 b V1) as (E2 & V2 & N2 & K2). destruct (cached f c1 b) as [fb c2]. cbn [fst snd] in *. subst fb.
  destruct (fold_cached_fl f (node_fl a b n) (seq 1 (n - 2)) (rnd (rnd (f a + f b) / 2)) c2 V2) as (E3 & V3 & N3 & K3).
  cbv beta in *. destruct (fold_left _ (seq 1 (n - 2)) (rnd (rnd (f a + f b) / 2), c2)) as [s c3]. cbn [fst snd] in *. subst s.
  split; [reflexivity|]. split; [exact V3|]. split; [auto|]. intros k. rewrite K3, K2, K1. unfold nodes_fl. split.
  - intros [[[Q|Q]|Q]|(i & Q1 & Q2)]; [tauto|tauto|tauto|]. apply in_seq in Q1. right. right. right. exists i. split; [lia|exact Q2].
  - intros [Q|[Q|[Q|(i & Q1 & Q2)]]]; [tauto|tauto|tauto|]. right. exists i. split; [apply in_seq; lia|exact Q2].
Qed.

Lemma refine_fl_spec f a b ea er limit : forall fuel n old out c, (2 <= n)%nat -> valid f c -> NoDup (keys c) ->
  (forall x, In x (keys c) <-> nodes_fl a b n x) -> (limit < n + fuel)%nat ->
  (forall r e, out = Some (r, e) -> r = trapezium0_fl f a b n) ->
  let '(st, out', c') := refine_fl fuel f a b ea er limit n old out c in
  exists n', (n <= n')%nat /\ valid f c' /\ NoDup (keys c') /\ (forall x, In x (keys c') <-> nodes_fl a b n' x) /\
    (n' = n \/ n' <= limit)%nat /\ (st <> O -> st = n' /\ (limit < 2 * n' - 1)%nat) /\ (forall r e, out' = Some (r, e) -> r = trapezium0_fl f a b n').
Proof.
  induction fuel as [|fuel IH]; intros n old out c Hn V N K HL HO; cbn [refine_fl].
  - exists n. repeat split; try assumption; try apply K; try lia.
  - destruct (Nat.leb_spec (2 * n - 1) limit) as [L|L].
    2:{ exists n. repeat split; try assumption; try apply K; try lia. }
    assert (En : (n + (n - 1) = 2 * n - 1)%nat) by lia. rewrite En.
    destruct (trapezium_fl_spec f a b (2 * n - 1) c ltac:(lia) V) as (E1 & V1 & N1 & K1). destruct (trapezium_fl f a b (2 * n - 1) c) as [r c1]. cbn [fst snd] in *.
    specialize (N1 N).
    assert (K2 : forall x, In x (keys c1) <-> nodes_fl a b (2 * n - 1) x).
    { intros x. rewrite K1, K. split; [intros [Q|Q]; [now apply nodes_sub|exact Q]|tauto]. }
    destruct (small_fl ea er (rnd (r - old)) r) eqn:ES.
    + exists (2 * n - 1)%nat. repeat split; try assumption; try apply K2; try lia. intros r' e' Q. injection Q as <- _. exact E1.
    + pose proof (IH (2 * n - 1)%nat r (Some (r, rnd (r - old))) c1 ltac:(lia) V1 N1 K2 ltac:(lia)) as H.
      assert (HO' : forall r' e', Some (r, rnd (r - old)) = Some (r', e') -> r' = trapezium0_fl f a b (2 * n - 1)) by (intros r' e' Q; injection Q as <- _; exact E1).
      specialize (H HO'). destruct (refine_fl fuel f a b ea er limit (2 * n - 1) r _ c1) as [[st out'] c'].
      destruct H as (n' & A & B & C & D & E & F & G). exists n'. repeat split; try assumption; try apply D; try lia; apply F; assumption.
Qed.

(* In floating point too every abscissa is evaluated once, and the calls of the
   integrand are those of the finest sum: at most one for each of its nodes *)
Theorem C187_rounded_calls : forall f a b epsabs epsrel limit st out c, nonadaptive_fl f a b epsabs epsrel limit = (st, out, c) ->
  NoDup (map fst c) /\ (forall x v, In (x, v) c -> v = f x) /\
  exists n, (forall x, In x (map fst c) <-> x = a \/ x = b \/ exists i, (0 < i < n - 1)%nat /\ x = node_fl a b n i) /\
    (length c <= n)%nat /\ (n = 20 \/ n <= limit)%nat /\ (st <> O -> st = n) /\ (forall r e, out = Some (r, e) -> r = trapezium0_fl f a b n).
Proof.
  intros f a b ea er limit st out c. unfold nonadaptive_fl. assert (V0 : valid f []) by constructor.
  destruct (trapezium_fl_spec f a b 20 [] ltac:(lia) V0) as (E1 & V1 & N1 & K1). destruct (trapezium_fl f a b 20 []) as [r c1]. cbn [fst snd] in *.
  specialize (N1 (NoDup_nil R)). assert (K2 : forall x, In x (keys c1) <-> nodes_fl a b 20 x).
  { intros x. rewrite K1. split; [intros [[]|Q]; exact Q|tauto]. }
  pose proof (refine_fl_spec f a b ea er limit limit 20 r None c1 ltac:(lia) V1 N1 K2 ltac:(lia) ltac:(discriminate)) as H.
  intros E. rewrite E in H. destruct H as (n & Hn & V & N & K & L & S0 & O0).
  split; [exact N|]. split; [intros x v I; exact (proj1 (List.Forall_forall _ _) V (x, v) I)|]. exists n.
  split; [exact K|]. split; [|split; [exact L|split; [intros Z; now apply S0|exact O0]]].
  rewrite <- (map_length fst). change (map fst c) with (keys c).
  assert (I : incl (keys c) (a :: b :: map (node_fl a b n) (seq 1 (n - 2)))).
  { intros x Hx. apply K in Hx as [->|[->|(i & Hi & ->)]]; [now left|right; now left|]. right. right. apply in_map. apply in_seq. lia. }
  pose proof (NoDup_incl_length N I) as Q. cbn [length] in Q. rewrite map_length, seq_length in Q. lia.
Qed.
Print Assumptions C187_rounded_calls.

Example C187_rounded_case : exists c, nonadaptive_fl (fun x => x) 0 1 0 0 38 = (20%nat, None, c) /\ (2 <= length c <= 20)%nat.
Proof.
  assert (Q : exists c, nonadaptive_fl (fun x => x) 0 1 0 0 38 = (20%nat, None, c)).
  { unfold nonadaptive_fl. destruct (trapezium_fl (fun x => x) 0 1 20 []) as [r c1]. exists c1. reflexivity. }
  destruct Q as [c E]. exists c. split; [exact E|].
  destruct (C187_rounded_calls _ _ _ _ _ _ _ _ _ E) as (N & _ & n & K & L & _ & B & _). rewrite <- (B ltac:(discriminate)) in L. split; [|exact L].
  rewrite <- (map_length fst). assert (I : incl [0; 1] (map fst c)) by (intros x [<-|[<-|[]]]; apply K; auto).
  assert (D : NoDup [0; 1]) by (constructor; [intros [Z|[]]; lra|constructor; [intros []|constructor]]). exact (NoDup_incl_length D I).
Qed.
