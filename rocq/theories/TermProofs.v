(* Amplitudes of merged collision integrals as formal sums of products of scalar
   products, so that their equality can be decided by computation. *)
From Coq Require Import Reals Lra Permutation ZArith.
From Verif Require Import Base CrossModel CrossProofs CrossProofs2 CrossProofs3 CrossProofs4 LibModel LibProofs ShapeProofs.
Open Scope R_scope.
Local Notation length := List.length.

(* the matrix element number, whether it is the term with two masses, the sign
   and the places of the four momenta (or masses) *)
Record term := mkTerm { tm : nat; massive : bool; tsign : Z; t1 : nat; t2 : nat; t3 : nat; t4 : nat }.
Definition eval1 (K1 K2 : nat -> R) (p : nat -> vec4) (m : nat -> R) (t : term) : R :=
  IZR (tsign t) * (if massive t then K2 (tm t) * m (t1 t) * m (t2 t) * dot (p (t3 t)) (p (t4 t)) else K1 (tm t) * dot (p (t1 t)) (p (t2 t)) * dot (p (t3 t)) (p (t4 t))).
Definition eval (K1 K2 : nat -> R) (p : nat -> vec4) (m : nat -> R) (l : list term) : R := fold_right Rplus 0 (map (eval1 K1 K2 p m) l).
Lemma eval_app K1 K2 p m a b : eval K1 K2 p m (a ++ b) = eval K1 K2 p m a + eval K1 K2 p m b.
Proof. unfold eval. induction a as [|x a IH]; cbn; [lra|]. rewrite IH. lra. Qed.
Lemma eval_perm K1 K2 p m a b : Permutation a b -> eval K1 K2 p m a = eval K1 K2 p m b.
Proof. unfold eval. induction 1; cbn; lra. Qed.

(* the terms of one matrix element in one reaction; the flags tell which of its
   two coefficients may be nonzero *)
Definition msgn (b : bool) : Z := if b then (-1)%Z else 1%Z.
Definition spot (s : list (nat * bool)) (k : nat) : nat * bool := match place k 0 s None with Some jc => jc | None => (O, false) end.
Definition parity (s : list (nat * bool)) : Z := msgn (Nat.odd (length (filter snd s))).
Definition form := (list nat * (bool * bool))%type.
Definition terms1 (s : list (nat * bool)) (n : nat) (f : form) : list term :=
  match f with
  | ([i; j; k; l], (h1, h2)) =>
      let a := spot s i in let b := spot s j in let c := spot s k in let d := spot s l in
      (if h1 then [mkTerm n false (parity s * msgn (snd a) * msgn (snd b) * msgn (snd c) * msgn (snd d)) (fst a) (fst b) (fst c) (fst d)] else []) ++
      (if h2 then [mkTerm n true (parity s * msgn (snd c) * msgn (snd d)) (fst a) (fst b) (fst c) (fst d)] else [])
  | _ => []
  end.
Fixpoint terms_from (s : list (nat * bool)) (n : nat) (fs : list form) : list term :=
  match fs with [] => [] | f :: t => terms1 s n f ++ terms_from s (S n) t end.
Definition terms_of (ss : list (list (nat * bool))) (fs : list form) : list term := flat_map (fun s => terms_from s 0 fs) ss.

(* matrix elements of these forms *)
Inductive formed (K1 K2 : nat -> R) : nat -> list form -> list mel -> Prop :=
| formed_nil n : formed K1 K2 n [] []
| formed_cons n i j k l h1 h2 K fs Ms : (h1 = false -> K1 n = 0) -> (h2 = false -> K2 n = 0) -> formed K1 K2 (S n) fs Ms ->
    formed K1 K2 n (([i; j; k; l], (h1, h2)) :: fs) (M4 [i; j; k; l] (K1 n) (K2 n) K :: Ms).
Definition whole (s : list (nat * bool)) : bool := forallb (fun k => match place k 0 s None with Some _ => true | None => false end) (seq 0 4).
Definition within (fs : list form) : bool := forallb (fun f => forallb (fun k => k <? 4) (fst f))%nat fs.

Lemma msgn_R b : IZR (msgn b) = sgn_of b.
Proof. destruct b; reflexivity. Qed.
Lemma parity_R s : IZR (parity s) = (-1) ^ length (filter snd s).
Proof.
  unfold parity. generalize (length (filter snd s)) as n. intros n. rewrite msgn_R. induction n as [|n IH]; [reflexivity|].
  rewrite Nat.odd_succ, <- Nat.negb_odd. cbn [pow]. rewrite <- IH. destruct (Nat.odd n); cbn; ring.
Qed.
Lemma dot_spot s p a b : dot (shape_momentum s p a) (shape_momentum s p b) = sgn_of (snd (spot s a)) * sgn_of (snd (spot s b)) * dot (p (fst (spot s a))) (p (fst (spot s b))).
Proof.
  assert (NL : forall x y, dot (neg x) y = - dot x y) by (intros [[[? ?] ?] ?] [[[? ?] ?] ?]; cbn; ring).
  assert (NR : forall x y, dot x (neg y) = - dot x y) by (intros [[[? ?] ?] ?] [[[? ?] ?] ?]; cbn; ring).
  unfold shape_momentum, spot. destruct (place a 0 s None) as [(i, [|])|], (place b 0 s None) as [(j, [|])|]; cbn [fst snd sgn_of]; rewrite ?NL, ?NR; ring.
Qed.
Lemma mass_spot s m k : whole s = true -> (k < 4)%nat -> shape_mass s m k = m (fst (spot s k)).
Proof.
  intros W K. unfold whole in W. rewrite forallb_forall in W. specialize (W k). rewrite in_seq in W. specialize (W ltac:(lia)).
  unfold shape_mass, spot. now destruct (place k 0 s None) as [(i, c)|].
Qed.
Lemma terms_shape K1 K2 s : whole s = true -> forall fs n Ms p m, within fs = true -> formed K1 K2 n fs Ms ->
  shape_amplitude s Ms p m = eval K1 K2 p m (terms_from s n fs).
Proof.
  intros W fs n Ms p m HW HF. revert HW. induction HF as [n|n i j k l h1 h2 K fs Ms H1 H2 HF IH]; intros HW.
  - unfold shape_amplitude, total, eval. cbn. ring.
  - cbn [within forallb fst] in HW. apply andb_prop in HW. destruct HW as [HW1 HW]. specialize (IH HW). cbn [terms_from]. rewrite eval_app, <- IH.
    unfold shape_amplitude, total. cbn [map fold_right Msq]. rewrite Rmult_plus_distr_l. f_equal.
    cbn [forallb] in HW1. repeat (apply andb_prop in HW1; let X := fresh "X" in destruct HW1 as [X HW1]; apply Nat.ltb_lt in X).
    rewrite !dot_spot, !mass_spot by assumption. unfold terms1, eval.
    assert (PR : IZR (parity s) = (-1) ^ length (filter snd s)) by apply parity_R. rewrite <- PR.
    destruct h1, h2; cbn [app map fold_right eval1 massive tsign tm t1 t2 t3 t4]; rewrite ?mult_IZR, ?msgn_R; unfold eval1; cbn [massive tsign tm t1 t2 t3 t4]; rewrite ?mult_IZR, ?msgn_R;
    try rewrite (H1 eq_refl); try rewrite (H2 eq_refl); ring.
Qed.
Lemma terms_shapes K1 K2 ss fs Ms p m : forallb whole ss = true -> within fs = true -> formed K1 K2 0 fs Ms ->
  shapes_amplitude ss Ms p m = eval K1 K2 p m (terms_of ss fs).
Proof.
  intros W HW HF. unfold shapes_amplitude, terms_of. induction ss as [|s ss IH]; [reflexivity|]. cbn [forallb] in W. apply andb_prop in W. destruct W as [W1 W].
  cbn [map fold_right flat_map]. rewrite eval_app, IH by assumption. f_equal. now apply terms_shape.
Qed.

(* moving the places *)
Definition moved (q : list nat) (j : nat) : nat := nth j q O.
Definition move (q : list nat) (t : term) : term := mkTerm (tm t) (massive t) (tsign t) (moved q (t1 t)) (moved q (t2 t)) (moved q (t3 t)) (moved q (t4 t)).
Definition low (t : term) : bool := ((t1 t <? 4) && (t2 t <? 4) && (t3 t <? 4) && (t4 t <? 4))%nat%bool.
Lemma eval_move K1 K2 q p m m' l : (forall j, (j < 4)%nat -> m j = m' (moved q j)) -> forallb low l = true ->
  eval K1 K2 (fun j => p (moved q j)) m l = eval K1 K2 p m' (map (move q) l).
Proof.
  intros HM HL. unfold eval. rewrite map_map. f_equal. apply map_ext_in. intros t Ht. rewrite forallb_forall in HL. specialize (HL t Ht). unfold low in HL.
  apply andb_prop in HL. destruct HL as [HL _]. apply andb_prop in HL. destruct HL as [HL _]. apply andb_prop in HL. destruct HL as [L1 L2]. apply Nat.ltb_lt in L1, L2.
  unfold eval1, move. cbn [massive tsign tm t1 t2 t3 t4]. now rewrite (HM (t1 t) L1), (HM (t2 t) L2).
Qed.

(* one way to write every term *)
Definition canon (t : term) : term :=
  let a := Nat.min (t1 t) (t2 t) in let b := Nat.max (t1 t) (t2 t) in let c := Nat.min (t3 t) (t4 t) in let d := Nat.max (t3 t) (t4 t) in
  if (negb (massive t) && ((c <? a) || ((c =? a) && (d <? b))))%nat%bool then mkTerm (tm t) (massive t) (tsign t) c d a b else mkTerm (tm t) (massive t) (tsign t) a b c d.
Lemma dot_minmax p a b : dot (p (Nat.min a b)) (p (Nat.max a b)) = dot (p a) (p b).
Proof. destruct (Nat.le_ge_cases a b) as [H|H]; [now rewrite Nat.min_l, Nat.max_r|rewrite Nat.min_r, Nat.max_l by exact H; apply dot_sym]. Qed.
Lemma mass_minmax (m : nat -> R) a b : m (Nat.min a b) * m (Nat.max a b) = m a * m b.
Proof. destruct (Nat.le_ge_cases a b) as [H|H]; [now rewrite Nat.min_l, Nat.max_r|rewrite Nat.min_r, Nat.max_l by exact H; apply Rmult_comm]. Qed.
Lemma eval1_canon K1 K2 p m t : eval1 K1 K2 p m (canon t) = eval1 K1 K2 p m t.
Proof.
  unfold canon. destruct t as [n b z i j k l]. unfold eval1. destruct b; cbn [negb andb massive tsign tm t1 t2 t3 t4].
  - rewrite dot_minmax, !(Rmult_assoc (K2 n)), mass_minmax. reflexivity.
  - destruct (_ || _)%bool; cbn [massive tsign tm t1 t2 t3 t4]; rewrite !dot_minmax; ring.
Qed.
Lemma eval_canon K1 K2 p m l : eval K1 K2 p m (map canon l) = eval K1 K2 p m l.
Proof. unfold eval. rewrite map_map. f_equal. apply map_ext. intros t. apply eval1_canon. Qed.

Definition term_eqb (a b : term) : bool :=
  ((tm a =? tm b)%nat && Bool.eqb (massive a) (massive b) && (tsign a =? tsign b)%Z && (t1 a =? t1 b)%nat && (t2 a =? t2 b)%nat && (t3 a =? t3 b)%nat && (t4 a =? t4 b)%nat)%bool.
Lemma term_eqb_eq a b : term_eqb a b = true -> a = b.
Proof.
  unfold term_eqb. intros H. repeat (apply andb_prop in H; let X := fresh "X" in destruct H as [H X]). apply Nat.eqb_eq in H. apply Bool.eqb_prop in X4. apply Z.eqb_eq in X3. apply Nat.eqb_eq in X2, X1, X0, X.
  destruct a, b. cbn in *. congruence.
Qed.
Fixpoint without (x : term) (l : list term) : option (list term) :=
  match l with [] => None | y :: t => if term_eqb x y then Some t else option_map (cons y) (without x t) end.
Lemma without_perm x : forall l l', without x l = Some l' -> Permutation (x :: l') l.
Proof.
  induction l as [|y t IH]; intros l' H; [discriminate|]. cbn in H. destruct (term_eqb x y) eqn:E.
  - apply term_eqb_eq in E. injection H as <-. subst. reflexivity.
  - destruct (without x t) as [u|]; [|discriminate]. injection H as <-. rewrite perm_swap. constructor. now apply IH.
Qed.
Fixpoint same_terms (a b : list term) : bool :=
  match a with [] => match b with [] => true | _ => false end | x :: t => match without x b with Some b' => same_terms t b' | None => false end end.
Lemma same_terms_perm : forall a b, same_terms a b = true -> Permutation a b.
Proof.
  induction a as [|x a IH]; intros b H; cbn in H; [destruct b; [constructor|discriminate]|].
  destruct (without x b) as [b'|] eqn:E; [|discriminate]. apply without_perm in E. rewrite <- E. constructor. now apply IH.
Qed.
Lemma same_eval K1 K2 p m a b : same_terms (map canon a) (map canon b) = true -> eval K1 K2 p m a = eval K1 K2 p m b.
Proof. intros H. rewrite <- (eval_canon _ _ _ _ a), <- (eval_canon _ _ _ _ b). apply eval_perm. now apply same_terms_perm. Qed.
