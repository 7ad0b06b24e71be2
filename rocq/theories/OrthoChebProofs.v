(* Lemmas about the modified Chebyshev algorithm of common/orthopoly.py. *)
From Coq Require Import Reals Psatz.
From Verif Require Import Base OrthoModel OrthoSpec OrthoProofs OrthoGaussProofs.
Open Scope R_scope.
Local Notation length := List.length.

Lemma el_app l v k : el (l ++ [v]) k = if Nat.eqb k (length l) then v else el l k.
Proof.
  unfold el. destruct (Nat.eqb_spec k (length l)) as [E|E].
  - subst. rewrite app_nth2 by lia. now rewrite Nat.sub_diag.
  - destruct (lt_dec k (length l)).
    + now rewrite app_nth1.
    + rewrite !nth_overflow; auto; [lia|rewrite app_length; simpl; lia].
Qed.

Lemma sig_row_el N n al bl am bm r1 r2 m :
  (n - 1 <= m)%nat -> (m < 2 * N - n + 1)%nat -> (1 <= n)%nat -> (n <= 2 * N)%nat ->
  el (sig_row N n al bl am bm r1 r2) m
  = el r1 (m + 1) - (al - el am m) * el r1 m - bl * el r2 m + el bm m * el r1 (m - 1).
Proof.
  intros H1 H2 H3 H4. unfold sig_row, el at 1.
  set (F := fun m0 : nat => _).
  rewrite (nth_indep _ 0 (F O)) by (rewrite map_length, seq_length; lia).
  rewrite map_nth, seq_nth by lia. simpl. unfold F.
  rewrite (proj2 (Nat.leb_le _ _)), (proj2 (Nat.ltb_lt _ _)) by lia. reflexivity.
Qed.

Section Cheb.
Variables (L : (R -> R) -> R) (N : nat) (am bm : list R) (mom : list R).
Hypothesis HL : functional L.
Hypothesis HP : positive L N.
Let q := monic (el am) (el bm).
Hypothesis HM : forall m, (m < 2 * N)%nat -> el mom m = L (q m).

Lemma Lpq_rec a b k m :
  L (fun x => monic a b (S (S k)) x * q m x)
  = L (fun x => monic a b (S k) x * q (S m) x) + (el am m - a (S k)) * L (fun x => monic a b (S k) x * q m x)
    + (match m with O => 0 | S j => el bm m * L (fun x => monic a b (S k) x * q j x) end)
    - b (S k) * L (fun x => monic a b k x * q m x).
Proof.
  assert (P : forall i j, polynomial (fun x => monic a b i x * q j x))
    by (intros; apply polynomial_mult; apply polynomial_monic).
  destruct m as [|m].
  - rewrite (proj1 HL _ (fun x => 1 * (monic a b (S k) x * q 1 x)
        + (el am 0 - a (S k)) * (monic a b (S k) x * q 0 x) + (- b (S k)) * (monic a b k x * q 0 x))).
    + rewrite functional_3 by auto. ring.
    + intros x. rewrite monic_SS. unfold q. rewrite monic_0, monic_1. ring.
  - rewrite (proj1 HL _ (fun x => 1 * (1 * (monic a b (S k) x * q (S (S m)) x)
        + (el am (S m) - a (S k)) * (monic a b (S k) x * q (S m) x)
        + (el bm (S m)) * (monic a b (S k) x * q m x)) + (- b (S k)) * (monic a b k x * q (S m) x))).
    + rewrite (proj2 HL).
      * rewrite functional_3 by auto. ring.
      * apply (polynomial_ext (fun x => 1 * (1 * (monic a b (S k) x * q (S (S m)) x)
          + (el am (S m) - a (S k)) * (monic a b (S k) x * q (S m) x))
          + (el bm (S m)) * (monic a b (S k) x * q m x))); [intros; ring|].
        apply polynomial_lin; [apply polynomial_lin|]; auto.
      * auto.
    + intros x. unfold q. rewrite !monic_SS. ring.
Qed.

Lemma Lpq_rec1 a b m :
  L (fun x => monic a b 1 x * q m x)
  = L (q (S m)) + (el am m - a O) * L (q m)
    + (match m with O => 0 | S j => el bm m * L (q j) end).
Proof.
  assert (P : forall j, polynomial (q j)) by (intros; apply polynomial_monic).
  destruct m as [|m].
  - rewrite (proj1 HL _ (fun x => 1 * q 1 x + (el am 0 - a O) * q 0 x)).
    + rewrite (proj2 HL) by auto. ring.
    + intros x. rewrite monic_1. unfold q. rewrite monic_0, monic_1. ring.
  - rewrite (proj1 HL _ (fun x => 1 * q (S (S m)) x + (el am (S m) - a O) * q (S m) x
        + el bm (S m) * q m x)).
    + rewrite functional_3 by auto. ring.
    + intros x. rewrite monic_1. unfold q. rewrite monic_SS. ring.
Qed.

(* orthogonal to q_0 .. q_{k-1} means orthogonal to every polynomial of lower degree *)
Lemma below p k : polynomial p -> (forall j, (j < k)%nat -> L (fun x => p x * q j x) = 0) ->
  forall f, poly_lt k f -> L (fun x => p x * f x) = 0.
Proof.
  intros Hp H f Hf.
  apply (agree (fun f => L (fun x => p x * f x)) (fun _ => 0) k); auto.
  - split.
    + intros g h E. apply HL. intros; now rewrite E.
    + intros g h u v Hg Hh.
      rewrite (proj1 HL _ (fun x => u * (p x * g x) + v * (p x * h x))) by (intros; ring).
      apply HL; now apply polynomial_mult.
  - split; [reflexivity|]. intros; ring.
  - intros j Hj. exists (q j). split; [apply leads_monic|auto].
Qed.

Definition ortho_to (a b : nat -> R) (k : nat) : Prop :=
  forall j, (j < k)%nat -> L (fun x => monic a b k x * q j x) = 0.

Lemma square a b k : ortho_to a b k ->
  L (fun x => monic a b k x * q k x) = L (fun x => monic a b k x * monic a b k x).
Proof.
  intros H.
  rewrite (proj1 HL (fun x => monic a b k x * q k x)
             (fun x => monic a b k x * monic a b k x
                       + monic a b k x * (q k x - monic a b k x))) by (intros; ring).
  assert (Q : poly_lt k (fun x => q k x - monic a b k x)).
  { apply (poly_ext _ (fun x => 1 * (q k x - x ^ k) + (-1) * (monic a b k x - x ^ k)));
      [intros; ring|]. apply poly_lin; apply leads_monic. }
  rewrite functional_plus; auto.
  - rewrite (below (monic a b k) k (polynomial_monic _ _ _) H _ Q). ring.
  - apply polynomial_mult; apply polynomial_monic.
  - apply polynomial_mult; [apply polynomial_monic|now exists k].
Qed.

Lemma square_pos a b k : (k < N)%nat -> 0 < L (fun x => monic a b k x * monic a b k x).
Proof.
  intros Hk. pose proof (HP k _ Hk (leads_monic a b k)) as H. cbv beta in H.
  rewrite (proj1 HL _ (fun x => monic a b k x * monic a b k x)) in H by (intros; ring).
  exact H.
Qed.

Record inv (n : nat) (s : cheb) : Prop := {
  i_la : length (c_alpha s) = n;
  i_lb : length (c_beta s) = n;
  i_ln : length (c_normsq s) = n;
  i_row : forall m, (n - 1 <= m)%nat -> (m <= 2 * N - n)%nat ->
          el (c_row s) m = L (fun x => monic (el (c_alpha s)) (el (c_beta s)) (n - 1) x * q m x);
  i_prev : forall m, (n - 2 <= m)%nat -> (m <= 2 * N - n + 1)%nat ->
          el (c_prev s) m
          = match n with
            | S (S k) => L (fun x => monic (el (c_alpha s)) (el (c_beta s)) k x * q m x)
            | _ => 0
            end;
  i_orth : forall k, (k <= n)%nat -> ortho_to (el (c_alpha s)) (el (c_beta s)) k;
  i_norm : forall k, (k < n)%nat ->
          el (c_normsq s) k
          = L (fun x => monic (el (c_alpha s)) (el (c_beta s)) k x
                        * monic (el (c_alpha s)) (el (c_beta s)) k x);
  i_b0 : el (c_beta s) 0 = L (fun _ => 1)
}.

Lemma inv_init : (1 <= N)%nat ->
  inv 1 {| c_alpha := [el am 0 + el mom 1 / el mom 0]; c_beta := [el mom 0];
           c_normsq := [el mom 0]; c_row := mom; c_prev := repeat 0 (2 * N) |}.
Proof.
  intros HN.
  assert (Q0 : forall x, q 0 x = 1) by reflexivity.
  assert (E0 : el mom 0 = L (fun _ => 1)) by (rewrite HM by lia; apply HL; intros; apply Q0).
  assert (P0 : 0 < L (fun _ => 1)).
  { pose proof (square_pos (fun _ => 0) (fun _ => 0) 0 ltac:(lia)) as P.
    rewrite (proj1 HL _ (fun _ => 1)) in P by (intros; rewrite monic_0; ring). exact P. }
  constructor; simpl c_alpha; simpl c_beta; simpl c_normsq; simpl c_row; simpl c_prev; try reflexivity.
  - intros m _ Hm. rewrite HM by lia. apply HL. intros x. simpl. rewrite monic_0. ring.
  - intros m _ _. unfold el. apply nth_repeat.
  - intros k Hk j Hj. assert (k = 1%nat) by lia. assert (j = O) by lia. subst.
    rewrite Lpq_rec1. change (el [el am 0 + el mom 1 / el mom 0] 0) with (el am 0 + el mom 1 / el mom 0).
    rewrite <- !HM by lia. rewrite E0. field. lra.
  - intros k Hk. assert (k = O) by lia. subst. change (el [el mom 0] 0) with (el mom 0).
    rewrite E0. apply HL. intros; rewrite monic_0; ring.
  - change (el [el mom 0] 0) with (el mom 0). exact E0.
Qed.

Lemma inv_step n s : (1 <= n)%nat -> (n < N)%nat -> inv n s ->
  inv (S n) (cheb_step N am bm s (S n)).
Proof.
  intros H1 HnN I. destruct I as [La Lb Ln IR IP IO IN I0].
  set (s' := cheb_step N am bm s (S n)).
  set (a := el (c_alpha s)) in *. set (b := el (c_beta s)) in *.
  set (a' := el (c_alpha s')). set (b' := el (c_beta s')).
  assert (Aa : forall k, (k < n)%nat -> a' k = a k).
  { intros k Hk. unfold a', s', cheb_step. cbn [c_alpha]. rewrite el_app, La.
    destruct (Nat.eqb_spec k n); [lia|reflexivity]. }
  assert (Ab : forall k, (k < n)%nat -> b' k = b k).
  { intros k Hk. unfold b', s', cheb_step. cbn [c_beta]. rewrite el_app, Lb.
    destruct (Nat.eqb_spec k n); [lia|reflexivity]. }
  assert (Mo : forall k x, (k <= n)%nat -> monic a' b' k x = monic a b k x).
  { intros k x Hk. apply (monic_ext a' b' a b n); auto. intros; apply Ab; lia. }
  assert (LM : forall k g, (k <= n)%nat ->
            L (fun x => monic a' b' k x * g x) = L (fun x => monic a b k x * g x)).
  { intros k g Hk. apply HL. intros x. now rewrite Mo. }
  (* the new row *)
  set (r := c_row s').
  assert (Er : forall m, (n <= m)%nat -> (m <= 2 * N - S n)%nat ->
            el r m = L (fun x => monic a b n x * q m x)).
  { intros m Hm1 Hm2. unfold r, s', cheb_step. cbn [c_row].
    rewrite sig_row_el by lia.
    replace (S n - 2)%nat with (n - 1)%nat by lia. fold a. fold b.
    rewrite !IR by lia. rewrite IP by lia.
    destruct n as [|[|k]]; [lia| |].
    - rewrite Lpq_rec1. destruct m as [|m]; [lia|].
      replace (S m + 1)%nat with (S (S m)) by lia. replace (S m - 1)%nat with m by lia. simpl.
      assert (E : forall j, L (fun x => monic a b 0 x * q j x) = L (q j))
        by (intros; apply HL; intros; rewrite monic_0; ring).
      rewrite !E. ring.
    - rewrite Lpq_rec. destruct m as [|m]; [lia|].
      replace (S m + 1)%nat with (S (S m)) by lia. replace (S m - 1)%nat with m by lia.
      replace (S (S k) - 1)%nat with (S k) by lia. ring. }
  assert (Ean : a' n = el am n + el r (S n) / el r n - el (c_row s) n / el (c_row s) (n - 1)).
  { unfold a', s', cheb_step. cbn [c_alpha]. rewrite el_app, La, Nat.eqb_refl.
    replace (S n - 1)%nat with n by lia. replace (S n - 2)%nat with (n - 1)%nat by lia.
    reflexivity. }
  assert (Ebn : b' n = el r n / el (c_row s) (n - 1)).
  { unfold b', s', cheb_step. cbn [c_beta]. rewrite el_app, Lb, Nat.eqb_refl.
    replace (S n - 1)%nat with n by lia. replace (S n - 2)%nat with (n - 1)%nat by lia.
    reflexivity. }
  assert (On : ortho_to a b n) by (apply IO; lia).
  assert (On1 : ortho_to a b (n - 1)) by (apply IO; lia).
  assert (Pn : 0 < L (fun x => monic a b n x * q n x)).
  { rewrite square by assumption. apply square_pos. lia. }
  assert (Pn1 : 0 < L (fun x => monic a b (n - 1) x * q (n - 1)%nat x)).
  { rewrite square by assumption. apply square_pos. lia. }
  rewrite Er in Ean by lia. rewrite Er in Ean by lia. rewrite !IR in Ean by lia.
  rewrite Er in Ebn by lia. rewrite IR in Ebn by lia.
  assert (ON : ortho_to a' b' (S n)).
  { intros j Hj. destruct n as [|n]; [lia|]. rewrite Lpq_rec.
    rewrite (LM (S n)), (LM (S n)), (LM n) by lia.
    replace (S n - 1)%nat with n in * by lia.
    assert (Ej : (match j with
                  | O => 0
                  | S i => el bm j * L (fun x => monic a' b' (S n) x * q i x)
                  end) = 0).
    { destruct j as [|i]; [reflexivity|]. rewrite (LM (S n)) by lia. rewrite On by lia. ring. }
    rewrite Ej.
    destruct (Nat.eq_dec j (S n)) as [->|N1]; [|destruct (Nat.eq_dec j n) as [->|N2]].
    - rewrite Ean, Ebn. field. split; lra.
    - rewrite (On n) by lia. rewrite Ebn. field. lra.
    - rewrite (On (S j)), (On j), (On1 j) by lia. ring. }
  constructor; fold s'.
  - unfold s', cheb_step. cbn [c_alpha]. rewrite app_length, La. simpl. lia.
  - unfold s', cheb_step. cbn [c_beta]. rewrite app_length, Lb. simpl. lia.
  - unfold s', cheb_step. cbn [c_normsq]. rewrite app_length, Ln. simpl. lia.
  - intros m Hm1 Hm2. fold r a' b'. replace (S n - 1)%nat with n in * by lia.
    rewrite Er by lia. rewrite LM by lia. reflexivity.
  - intros m Hm1 Hm2. fold a' b'. destruct n as [|k]; [lia|].
    unfold s', cheb_step. cbn [c_prev]. rewrite IR by lia. rewrite LM by lia.
    replace (S k - 1)%nat with k by lia. reflexivity.
  - intros k Hk. fold a' b'. destruct (Nat.eq_dec k (S n)) as [->|Ne]; [exact ON|].
    intros j Hj. rewrite LM by lia. apply IO; lia.
  - intros k Hk. fold a' b'.
    assert (Ek : L (fun x => monic a' b' k x * monic a' b' k x)
                 = L (fun x => monic a b k x * monic a b k x))
      by (apply HL; intros; rewrite !Mo by lia; reflexivity).
    rewrite Ek.
    unfold s', cheb_step. cbn [c_normsq]. rewrite el_app, Ln. fold a b.
    destruct (Nat.eqb_spec k n) as [->|Ne].
    + rewrite <- square by assumption.
      replace (S n - 1)%nat with n by lia. rewrite <- Er by lia. reflexivity.
    + apply IN. lia.
  - fold b'. rewrite Ab by lia. exact I0.
Qed.

Lemma inv_loop j n s : (1 <= n)%nat -> (n + j <= N)%nat -> inv n s ->
  inv (n + j) (fold_left (cheb_step N am bm) (seq (S n) j) s).
Proof.
  revert n s. induction j as [|j IH]; intros n s H1 H2 I; simpl.
  - now rewrite Nat.add_0_r.
  - replace (n + S j)%nat with (S n + j)%nat by lia. apply IH; [lia|lia|].
    apply inv_step; auto; lia.
Qed.

Lemma inv_coefficients n s : (n <= N)%nat -> inv n s ->
  coefficients_of L (el (c_alpha s)) (el (c_beta s)) n.
Proof.
  intros HnN I. split; [symmetry; apply (i_b0 _ _ I)|].
  intros k l Hkl.
  rewrite (proj1 HL _ (fun x => monic (el (c_alpha s)) (el (c_beta s)) l x
                                * monic (el (c_alpha s)) (el (c_beta s)) k x)) by (intros; ring).
  apply (below _ l); [apply polynomial_monic| |].
  - apply (i_orth _ _ I). lia.
  - apply (poly_weaken (S k)); [lia|]. apply leads_poly, leads_monic.
Qed.
End Cheb.

Lemma prodn_pos_inv b n : 0 < b O -> (forall k, (k < n)%nat -> 0 < prodn b k) ->
  forall k, (k < n)%nat -> 0 < b k.
Proof.
  intros H0 H k Hk. destruct k as [|k]; [assumption|].
  pose proof (H (S k) Hk) as P. pose proof (H k ltac:(lia)) as Q. simpl in P.
  destruct (Rlt_dec 0 (b (S k))); [assumption|]. nra.
Qed.
