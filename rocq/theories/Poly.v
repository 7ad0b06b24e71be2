(* Polynomials as coefficient lists (lowest degree first): evaluation, a formal
   antiderivative, composition with an affine map. Used only in specifications. *)
From Coq Require Import Reals Lra Psatz.
From Verif Require Import Base.
Open Scope R_scope.

Fixpoint peval (cs : list R) (t : R) : R :=
  match cs with [] => 0 | c :: r => c + t * peval r t end.

(* antiderivative of t^k * p(t), zero at 0 *)
Fixpoint pintk (k : nat) (cs : list R) (t : R) : R :=
  match cs with [] => 0 | c :: r => c * t ^ S k / INR (S k) + pintk (S k) r t end.
Definition pint := pintk 0.

Lemma pintk_deriv cs : forall k t, derivable_pt_lim (pintk k cs) t (t ^ k * peval cs t).
Proof.
  induction cs as [|c r IH]; intros k t; cbn [pintk peval].
  - rewrite Rmult_0_r. apply derivable_pt_lim_const.
  - replace (t ^ k * (c + t * peval r t)) with (c * t ^ k + t ^ S k * peval r t) by (simpl; ring).
    apply (derivable_pt_lim_plus (fun t => c * t ^ S k / INR (S k)) (pintk (S k) r)); [|apply IH].
    assert (E : c * t ^ k = (c / INR (S k)) * (INR (S k) * t ^ pred (S k))).
    { cbn [pred]. field. apply not_0_INR. discriminate. }
    rewrite E. intros eps Heps.
    destruct (derivable_pt_lim_scal (fun t => t ^ S k) (c / INR (S k)) t _ (derivable_pt_lim_pow t (S k)) eps Heps) as [d Hd].
    exists d. intros h Hh Hhd. specialize (Hd h Hh Hhd). unfold mult_real_fct in Hd.
    replace (c * (t + h) ^ S k / INR (S k) - c * t ^ S k / INR (S k))
      with (c / INR (S k) * (t + h) ^ S k - c / INR (S k) * t ^ S k) by (unfold Rdiv; ring). exact Hd.
Qed.

Lemma pint_deriv cs t : derivable_pt_lim (pint cs) t (peval cs t).
Proof. pose proof (pintk_deriv cs 0 t) as H. simpl in H. rewrite Rmult_1_l in H. exact H. Qed.

(* two functions with the same derivative differ by a constant *)
Lemma same_deriv_increment (F G f : R -> R) :
  (forall t, derivable_pt_lim F t (f t)) -> (forall t, derivable_pt_lim G t (f t)) ->
  forall a b, F b - F a = G b - G a.
Proof.
  intros HF HG a b.
  assert (pr : derivable (fun t => F t - G t)).
  { intros t. exists (f t - f t). apply (derivable_pt_lim_minus F G); auto. }
  assert (H0 : forall t, derive_pt (fun t => F t - G t) t (pr t) = 0).
  { intros t. rewrite (derive_pt_eq_0 (fun t => F t - G t) t (f t - f t) (pr t)); [ring|].
    apply (derivable_pt_lim_minus F G); auto. }
  pose proof (null_derivative_1 _ pr H0) as HC. unfold constant in HC.
  specialize (HC a b). cbv beta in HC. lra.
Qed.

Lemma pint_increment cs (Y : R -> R) a b :
  (forall t, derivable_pt_lim Y t (peval cs t)) -> Y b - Y a = pint cs b - pint cs a.
Proof. intros H. apply (same_deriv_increment Y (pint cs) (peval cs)); [exact H|apply pint_deriv]. Qed.

(* composition with x -> s*x + a *)
Fixpoint padd (p q : list R) : list R :=
  match p, q with
  | [], _ => q
  | _, [] => p
  | a :: p', b :: q' => (a + b) :: padd p' q'
  end.
Definition pscale (c : R) (p : list R) : list R := map (Rmult c) p.
Fixpoint pcomp (cs : list R) (s a : R) : list R :=
  match cs with
  | [] => []
  | c :: r => let q := pcomp r s a in padd (c :: pscale s q) (pscale a q)
  end.

Lemma peval_padd p : forall q t, peval (padd p q) t = peval p t + peval q t.
Proof.
  induction p as [|a p IH]; intros [|b q] t; cbn [padd peval]; try ring. rewrite IH. ring.
Qed.
Lemma peval_pscale c p t : peval (pscale c p) t = c * peval p t.
Proof. induction p as [|a p IH]; cbn; [ring|]. unfold pscale in IH. rewrite IH. ring. Qed.
Lemma peval_pcomp cs s a t : peval (pcomp cs s a) t = peval cs (s * t + a).
Proof.
  induction cs as [|c r IH]; [reflexivity|]. cbn [pcomp]. cbn zeta.
  rewrite peval_padd. cbn [peval]. rewrite !peval_pscale, IH. ring.
Qed.
Lemma padd_length p : forall q, length (padd p q) = Nat.max (length p) (length q).
Proof. induction p as [|a p IH]; intros [|b q]; cbn; auto. Qed.
Lemma pcomp_length cs s a : (length (pcomp cs s a) <= length cs)%nat.
Proof.
  induction cs as [|c r IH]; [auto|]. cbn [pcomp]. cbn zeta.
  rewrite padd_length. cbn [length]. unfold pscale. rewrite !map_length. lia.
Qed.
