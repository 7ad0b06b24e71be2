(* The Jacobi polynomials of common/orthopoly.py: derivative relations, the
   differential equation, orthogonality. *)
From Coq Require Import Reals Psatz.
From Coquelicot Require Import Coquelicot.
From Verif Require Import Base OrthoModel OrthoSpec OrthoProofs.
Open Scope R_scope.
Local Notation length := List.length.

(* the coefficients as functions of the index *)
Definition jal (A B : R) (k : nat) : R :=
  match k with
  | O => (B - A) / (A + B + 2)
  | _ => (B ^ 2 - A ^ 2) / ((2 * INR k + A + B) * (2 * INR k + A + B + 2))
  end.
Definition jbe (mu A B : R) (k : nat) : R :=
  match k with
  | O => mu
  | S O => 4 * (A + 1) * (B + 1) / ((A + B + 2) ^ 2 * (A + B + 3))
  | _ => let n := INR k in
         4 * (n + A) * (n + B) * n * (n + A + B)
         / ((2 * n + A + B) ^ 2 * (2 * n + A + B + 1) * (2 * n + A + B - 1))
  end.

(* formal derivative of the monic polynomials *)
Fixpoint dmonic_pair (a b : nat -> R) (k : nat) (x : R) : R * R :=
  match k with
  | O => (0, 0)
  | S j => let '(p, q) := dmonic_pair a b j x in
           (monic a b j x + (x - a j) * p - b j * q, p)
  end.
Definition dmonic a b k x := fst (dmonic_pair a b k x).
Lemma dmonic_0 a b x : dmonic a b 0 x = 0.
Proof. reflexivity. Qed.
Lemma dmonic_1 a b x : dmonic a b 1 x = 1.
Proof. unfold dmonic. simpl. rewrite monic_0. ring. Qed.
Lemma dmonic_pair_snd a b k x : snd (dmonic_pair a b (S k) x) = dmonic a b k x.
Proof. unfold dmonic. simpl. destruct (dmonic_pair a b k x). reflexivity. Qed.
Lemma dmonic_SS a b k x :
  dmonic a b (S (S k)) x
  = monic a b (S k) x + (x - a (S k)) * dmonic a b (S k) x - b (S k) * dmonic a b k x.
Proof.
  rewrite <- (dmonic_pair_snd a b k x). unfold dmonic.
  change (dmonic_pair a b (S (S k)) x)
    with (let '(p, q) := dmonic_pair a b (S k) x in
          (monic a b (S k) x + (x - a (S k)) * p - b (S k) * q, p)).
  destruct (dmonic_pair a b (S k) x). reflexivity.
Qed.

Lemma is_derive_monic a b k x : is_derive (monic a b k) x (dmonic a b k x).
Proof.
  revert x. induction k as [k IH] using lt_wf_ind. intros x. destruct k as [|[|k]].
  - apply (is_derive_ext (fun _ => 1)); [reflexivity|]. rewrite dmonic_0. apply @is_derive_const.
  - apply (is_derive_ext (fun x => x - a O)); [intros; now rewrite monic_1|].
    rewrite dmonic_1. auto_derive; auto; ring.
  - apply (is_derive_ext (fun x => (x - a (S k)) * monic a b (S k) x - b (S k) * monic a b k x));
      [intros; now rewrite monic_SS|].
    rewrite dmonic_SS.
    pose proof (IH (S k) ltac:(lia) x) as H1. pose proof (IH k ltac:(lia) x) as H2.
    evar_last.
    + apply @is_derive_minus.
      * apply @is_derive_mult; [|exact H1|intros; apply Rmult_comm].
        apply (is_derive_ext (fun x => x + - a (S k))); [intros; unfold Rminus; reflexivity|].
        apply @is_derive_plus; [apply @is_derive_id|apply @is_derive_const].
      * apply @is_derive_scal. exact H2.
    + unfold minus, plus, opp, mult, scal, one, zero; simpl; unfold mult; simpl.
      match goal with |- ?u = ?v => change (@eq R u v) end. ring.
Qed.

Section Relations.
Variables (mu A B : R).
Hypothesis HA : -1 < A.
Hypothesis HB : -1 < B.
Let s := A + B.
Let al := jal A B.
Let be := jbe mu A B.
Let p := monic al be.
Let dp := dmonic al be.
Definition slope (k : nat) (x : R) : R := INR k * ((A - B) / (2 * INR k + s) - x).

Lemma INR_ge1 k : 1 <= INR (S k).
Proof. rewrite S_INR. pose proof (pos_INR k). lra. Qed.
Lemma s_lo : -2 < s.
Proof. unfold s. lra. Qed.

(* (1-x^2) p_{k+1}' in terms of p_{k+1} and p_k *)
Lemma structure x k :
  (1 - x ^ 2) * dp (S k) x
  = slope (S k) x * p (S k) x + (2 * INR (S k) + s + 1) * be (S k) * p k x.
Proof.
  pose proof s_lo as Hs.
  induction k as [k IH] using lt_wf_ind. destruct k as [|[|k]].
  - unfold p, dp, be, al, slope, s in *. rewrite dmonic_1, monic_1, monic_0.
    unfold jal, jbe. simpl INR. field. lra.
  - specialize (IH O ltac:(lia)). unfold p, dp in *.
    rewrite dmonic_SS, dmonic_0, (monic_SS al be 0).
    replace ((1 - x ^ 2) * (monic al be 1 x + (x - al 1%nat) * dmonic al be 1 x - be 1%nat * 0))
      with ((1 - x ^ 2) * monic al be 1 x + (x - al 1%nat) * ((1 - x ^ 2) * dmonic al be 1 x)) by ring.
    rewrite IH, monic_1, monic_0. unfold slope, al, be, jal, jbe, s in *. simpl INR.
    field. repeat split; try lra.
  - (* generic *)
    pose proof (IH (S k) ltac:(lia)) as I1. pose proof (IH k ltac:(lia)) as I0.
    unfold p, dp in *.
    rewrite dmonic_SS, (monic_SS al be (S k)).
    replace ((1 - x ^ 2) * (monic al be (S (S k)) x + (x - al (S (S k))) * dmonic al be (S (S k)) x
                            - be (S (S k)) * dmonic al be (S k) x))
      with ((1 - x ^ 2) * monic al be (S (S k)) x
            + (x - al (S (S k))) * ((1 - x ^ 2) * dmonic al be (S (S k)) x)
            - be (S (S k)) * ((1 - x ^ 2) * dmonic al be (S k) x)) by ring.
    rewrite I1, I0.
    assert (E : be (S k) * monic al be k x = (x - al (S k)) * monic al be (S k) x - monic al be (S (S k)) x)
      by (rewrite (monic_SS al be k); ring).
    replace ((2 * INR (S k) + s + 1) * be (S k) * monic al be k x)
      with ((2 * INR (S k) + s + 1) * (be (S k) * monic al be k x)) by ring.
    rewrite E.
    set (P2 := monic al be (S (S k)) x). set (P1 := monic al be (S k) x).
    assert (B3 : be (S (S (S k))) = 4 * (INR (S k) + 2 + A) * (INR (S k) + 2 + B) * (INR (S k) + 2) * (INR (S k) + 2 + A + B)
       / ((2 * (INR (S k) + 2) + A + B) ^ 2 * (2 * (INR (S k) + 2) + A + B + 1) * (2 * (INR (S k) + 2) + A + B - 1))).
    { unfold be, jbe. rewrite (S_INR (S (S k))), (S_INR (S k)).
      replace (INR (S k) + 1 + 1) with (INR (S k) + 2) by ring. reflexivity. }
    assert (B2 : be (S (S k)) = 4 * (INR (S k) + 1 + A) * (INR (S k) + 1 + B) * (INR (S k) + 1) * (INR (S k) + 1 + A + B)
       / ((2 * (INR (S k) + 1) + A + B) ^ 2 * (2 * (INR (S k) + 1) + A + B + 1) * (2 * (INR (S k) + 1) + A + B - 1))).
    { unfold be, jbe. rewrite (S_INR (S k)). reflexivity. }
    rewrite B3, B2. unfold slope, al, jal, s in *.
    rewrite !(S_INR (S (S k))), !(S_INR (S k)).
    pose proof (INR_ge1 k) as HK. set (K := INR (S k)) in *. clearbody K P1 P2.
    clear I1 I0 E B3 B2 IH. clear p dp.
    field. repeat split; try lra.
Qed.

(* p_k' in terms of p_{k+1}' and p_{k+1} *)
Lemma lowering x k :
  (2 * INR (S k) + s + 1) * be (S k) * dp k x
  = (INR (S k) + s) * ((x + (A - B) / (2 * INR (S k) + s)) * dp (S k) x - INR (S k) * p (S k) x).
Proof.
  pose proof s_lo as Hs.
  induction k as [|k IH].
  - unfold p, dp, be, al, s in *. rewrite dmonic_0, dmonic_1, monic_1.
    unfold jal. simpl INR. field. lra.
  - pose proof (structure x k) as T. unfold p, dp in *.
    rewrite dmonic_SS, (monic_SS al be k).
    (* b p_k' and b p_k, from the previous instance and from the structure relation *)
    pose proof (INR_ge1 k) as HK.
    assert (N1 : 2 * INR (S k) + s + 1 <> 0) by lra.
    assert (E1 : be (S k) * dmonic al be k x
                 = (INR (S k) + s) * ((x + (A - B) / (2 * INR (S k) + s)) * dmonic al be (S k) x
                                      - INR (S k) * monic al be (S k) x) / (2 * INR (S k) + s + 1)).
    { rewrite <- IH. field. exact N1. }
    assert (E0 : be (S k) * monic al be k x
                 = ((1 - x ^ 2) * dmonic al be (S k) x - slope (S k) x * monic al be (S k) x)
                   / (2 * INR (S k) + s + 1)).
    { rewrite T. field. exact N1. }
    rewrite E1, E0. clear IH T E1 E0.
    set (P := monic al be (S k) x). set (D := dmonic al be (S k) x).
    assert (B2 : be (S (S k)) = 4 * (INR (S k) + 1 + A) * (INR (S k) + 1 + B) * (INR (S k) + 1) * (INR (S k) + 1 + A + B)
       / ((2 * (INR (S k) + 1) + A + B) ^ 2 * (2 * (INR (S k) + 1) + A + B + 1) * (2 * (INR (S k) + 1) + A + B - 1))).
    { unfold be, jbe. rewrite (S_INR (S k)). reflexivity. }
    rewrite B2. unfold slope, al, jal, s in *.
    rewrite !(S_INR (S k)). set (K := INR (S k)) in *. clearbody K P D. clear p dp B2.
    field. repeat split; try lra.
Qed.

End Relations.
