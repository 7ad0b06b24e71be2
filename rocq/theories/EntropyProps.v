(* C149: Boltzmann's H theorem for the collision functional. *)
From Coq Require Import Reals Lra Psatz.
From Coquelicot Require Import Coquelicot.
From Verif Require Import Base FunctionalModel FunctionalProofs.
Open Scope R_scope.
Local Notation length := List.length.

(* the entropy of one quantum state with mean occupation f (eta = 1 fermions,
   -1 bosons) and of the states of the participants *)
Definition state_entropy (e f : R) : R := - f * ln f - (1 - e * f) * ln (1 - e * f) / e.
Fixpoint entropy (cs : list (leg * (R -> R))) (t : R) : R :=
  match cs with [] => 0 | (l, c) :: r => state_entropy (eta l) (c t) + entropy r t end.
Example entropy_fermion : forall f, state_entropy 1 f = - f * ln f - (1 - f) * ln (1 - f).
Proof. intros. unfold state_entropy. rewrite Rmult_1_l. field. Qed.
Example entropy_boson : forall f, state_entropy (-1) f = - f * ln f + (1 + f) * ln (1 + f).
Proof. intros. unfold state_entropy. replace (1 - -1 * f) with (1 + f) by ring. field. Qed.

(* fermion or boson, on the left or on the right, occupation strictly between its bounds *)
Definition mixed (t : R) (c : leg * (R -> R)) : Prop :=
  (side (fst c) = (-1)%Z \/ side (fst c) = 1%Z) /\ (eta (fst c) = 1 \/ eta (fst c) = -1) /\
  0 < snd c t /\ 0 < 1 - eta (fst c) * snd c t.
(* every event changes the occupations of the left side by w v, those of the right by - w v *)
Definition driven (t w v : R) (c : leg * (R -> R)) : Prop := is_derive (snd c) t (- IZR (side (fst c)) * (w * v)).

Lemma state_entropy_derive e f : e = 1 \/ e = -1 -> 0 < f -> 0 < 1 - e * f -> is_derive (state_entropy e) f (ln (1 - e * f) - ln f).
Proof.
  intros He Hf Hb. unfold state_entropy. auto_derive; [repeat split; try lra; destruct He; lra|].
  match goal with |- ?x = ?y => change (@eq R x y) end.
  replace (1 + - (e * f)) with (1 - e * f) by ring.
  generalize dependent (ln (1 - e * f)). generalize (ln f). intros a b. field. repeat split; try lra; destruct He; lra.
Qed.
Fixpoint affinity (cs : list (leg * (R -> R))) (t : R) : R :=
  match cs with [] => 0 | (l, c) :: r => IZR (side l) * (ln (c t) - ln (1 - eta l * c t)) + affinity r t end.
Lemma entropy_derive cs t w v : Forall (mixed t) cs -> Forall (driven t w v) cs -> is_derive (entropy cs) t (w * v * affinity cs t).
Proof.
  induction cs as [|(l, c) r IH]; intros HM HD; cbn [entropy affinity].
  - rewrite Rmult_0_r. apply (is_derive_const 0).
  - inversion HM as [|? ? (Hs & He & Hf & Hb) HM']; subst. inversion HD as [|? ? Hd HD']; subst. cbn [fst snd] in *.
    replace (w * v * (IZR (side l) * (ln (c t) - ln (1 - eta l * c t)) + affinity r t))
      with (plus (scal (- IZR (side l) * (w * v)) (ln (1 - eta l * c t) - ln (c t))) (w * v * affinity r t)).
    2: { unfold plus, scal. cbn. unfold mult. cbn. ring. }
    apply @is_derive_plus; [|apply IH; auto].
    apply (is_derive_comp (state_entropy (eta l)) c); [apply state_entropy_derive; auto|exact Hd].
Qed.
Lemma prod_pos_ own cs t : Forall (mixed t) cs -> 0 < prod (factor own) (map (fun c => (fst c, snd c t)) cs).
Proof.
  induction cs as [|c r IH]; intros HM; cbn [map prod]; [lra|]. inversion HM as [|? ? (Hs & He & Hf & Hb) HM']; subst.
  apply Rmult_lt_0_compat; [|auto]. unfold factor. cbn [fst snd]. destruct (_ =? _)%Z; auto.
Qed.
Lemma affinity_ratio cs t : Forall (mixed t) cs ->
  affinity cs t = ln (gain (map (fun c => (fst c, snd c t)) cs)) - ln (loss (map (fun c => (fst c, snd c t)) cs)).
Proof.
  unfold gain, loss. induction cs as [|(l, c) r IH]; intros HM; cbn [map prod affinity].
  - ring.
  - pose proof (fun own => prod_pos_ own r t) as P. inversion HM as [|? ? (Hs & He & Hf & Hb) HM']; subst. cbn [fst snd] in *.
    rewrite IH by auto.
    rewrite !ln_mult by (auto; unfold factor; cbn [fst snd]; destruct (_ =? _)%Z; auto).
    unfold factor at 3 5. cbn [fst snd]. destruct Hs as [-> | ->]; cbn [Z.eqb Pos.eqb]; ring.
Qed.

Theorem C149_entropy : forall l c cs t w v, let all := (l, c) :: cs in
  side l = (-1)%Z -> Forall (mixed t) all -> 0 < w ->
  functional Full (map fst all) (map (fun x => snd x t) all) = Ok v -> Forall (driven t w v) all ->
  exists D, is_derive (entropy all) t D /\ 0 <= D /\ (D = 0 <-> v = 0).
Proof.
  intros l c cs t w v all Hl HM Hw HF HD. exists (w * v * affinity all t). split; [now apply entropy_derive|].
  assert (HV : v = gain (map (fun c => (fst c, snd c t)) all) - loss (map (fun c => (fst c, snd c t)) all)).
  { unfold all in HF |- *. cbn [map fst snd] in HF |- *.
    inversion HM as [|? ? _ HM']; subst.
    rewrite full_value in HF; [|now rewrite !map_length| |exact Hl].
    - assert (E : forall q : list (leg * (R -> R)), combine (map fst q) (map (fun x => snd x t) q) = map (fun c0 => (fst c0, snd c0 t)) q).
      { induction q as [|a q IH]; cbn; [reflexivity|now rewrite IH]. }
      cbn [combine] in HF. rewrite E in HF. congruence.
    - unfold nonneg. rewrite Forall_map. eapply Forall_impl; [|exact HM']. intros a (_ & _ & A & _). lra. }
  rewrite (affinity_ratio all t HM). rewrite HV.
  pose proof (prod_pos_ 1 all t HM) as PG. pose proof (prod_pos_ (-1) all t HM) as PL. fold (gain (map (fun c => (fst c, snd c t)) all)) in PG. fold (loss (map (fun c => (fst c, snd c t)) all)) in PL.
  revert PG PL. generalize (gain (map (fun c => (fst c, snd c t)) all)) as G, (loss (map (fun c => (fst c, snd c t)) all)) as L. intros G L PG PL.
  destruct (Rtotal_order G L) as [O|[O|O]].
  - pose proof (ln_increasing _ _ PG O). assert (0 < (G - L) * (ln G - ln L)) by nra. split; [nra|]. split; intros; nra.
  - subst. split; [nra|]. split; intros; nra.
  - pose proof (ln_increasing _ _ PL O). assert (0 < (G - L) * (ln G - ln L)) by nra. split; [nra|]. split; intros; nra.
Qed.
Print Assumptions C149_entropy.
(* a decay of a boson into two fermions: more products than balance allows, so the inverse decay wins *)
Definition inverse_decay : list (leg * (R -> R)) :=
  [(mkLeg (-1) (-1), fun s => 1/8 + s * (1/8)); (mkLeg 1 1, fun s => 1/2 - s * (1/8)); (mkLeg 1 1, fun s => 1/2 - s * (1/8))].
Example C149_ex : Forall (mixed 0) inverse_decay /\ functional Full (map fst inverse_decay) (map (fun x => snd x 0) inverse_decay) = Ok (1/4) /\
  Forall (driven 0 (1/2) (1/4)) inverse_decay.
Proof.
  split; [|split].
  - unfold inverse_decay, mixed. repeat apply Forall_cons; try apply Forall_nil; cbn; repeat split; auto; lra.
  - unfold inverse_decay. cbn [map fst snd]. rewrite full_value; [|reflexivity|repeat constructor; lra|reflexivity]. f_equal. unfold gain, loss. cbn. lra.
  - unfold inverse_decay, driven. repeat apply Forall_cons; try apply Forall_nil; cbn [fst snd side]; auto_derive; auto; lra.
Qed.

(* the blocking factors are what makes the balance: with the plain products of
   occupations the balance point would not be an extremum of the entropy *)
Theorem C149_blocking_needed : exists l c cs t, let all := (l, c) :: cs in side l = (-1)%Z /\ Forall (mixed t) all /\
  functional Full (map fst all) (map (fun x => snd x t) all) = Ok 0 /\
  c t <> fold_right (fun x acc => snd x t * acc) 1 cs.
Proof.
  exists (mkLeg (-1) (-1)), (fun _ => 1/3), [(mkLeg 1 1, fun _ => 1/3); (mkLeg 1 1, fun _ => 1/3)], 0. cbv zeta. split; [reflexivity|]. split; [|split].
  - unfold mixed. repeat apply Forall_cons; try apply Forall_nil; cbn; repeat split; auto; lra.
  - cbn [map fst snd]. rewrite full_value; [|reflexivity|repeat constructor; lra|reflexivity]. f_equal. unfold gain, loss. cbn. lra.
  - cbn. lra.
Qed.
Print Assumptions C149_blocking_needed.
