(* Lemmas about the Gauss, Radau and Lobatto rules of common/orthopoly.py. *)
From Coq Require Import Reals Psatz.
From Verif Require Import Base OrthoModel OrthoSpec OrthoProofs.
Open Scope R_scope.
Local Notation length := List.length.

(* What LAPACK promises when it reports success. *)
Definition eig_sound (eig : eigen) : Prop :=
  forall s d x V, eig s d = Ok (x, V) ->
    length x = length d /\ length V = length d
    /\ Forall (fun r => length r = length d) V
    /\ decomposes (length d) (tri (el s) (el d)) (el x) (fun k i => el (nth k V []) i).
Definition sol_sound (sol : banded) : Prop :=
  forall u d l f g, sol u d l f = Ok g ->
    length g = length f
    /\ forall k, (k < length f)%nat ->
       sumn (fun j => band (el u) (el d) (el l) k j * el g j) (length f) = el f k.

Lemma roots_ok l s : roots l = Ok s -> s = map sqrt l /\ Forall (fun b => 0 <= b) l.
Proof.
  unfold roots. destruct (forallb _ l) eqn:E; [|discriminate]. intros [= <-]. split; [reflexivity|].
  rewrite forallb_forall in E. apply Forall_forall. intros b Hb. specialize (E b Hb).
  destruct (Rlt_dec b 0); [discriminate|lra].
Qed.
Lemma el_map f l k : (k < length l)%nat -> el (map f l) k = f (el l k).
Proof.
  intros H. unfold el. rewrite (nth_indep _ 0 (f 0)) by (now rewrite map_length).
  apply map_nth.
Qed.
Lemma stacked_ok b a s d : stacked b a = Ok (s, d) ->
  length b = length a /\ s = map sqrt b /\ d = a /\ Forall (fun b => 0 <= b) b.
Proof.
  unfold stacked. destruct (Nat.eqb_spec (length b) (length a)) as [E|]; [|discriminate].
  destruct (roots b) eqn:R; [|discriminate]. simpl. intros [= <- <-].
  apply roots_ok in R as [-> H]. auto.
Qed.
Lemma py_get_0 {A} (l : list A) v : py_get l 0 = Ok v -> exists t, l = v :: t.
Proof.
  unfold py_get, py_index. destruct l as [|h t]; [discriminate|]. cbn. intros [= ->]. eauto.
Qed.
Lemma py_get_last (l : list R) v : py_get l (-1) = Ok v ->
  (0 < length l)%nat /\ v = el l (pred (length l)).
Proof.
  unfold py_get, py_index. destruct l as [|h t]; [discriminate|].
  change (length (h :: t)) with (S (length t)).
  replace ((0 <=? -1)%Z) with false by reflexivity.
  cbn [andb].
  destruct ((- Z.of_nat (S (length t)) <=? -1)%Z && (-1 <? 0)%Z)%bool eqn:E; [|discriminate].
  replace (Z.to_nat (Z.of_nat (S (length t)) + -1)) with (length t) by lia.
  destruct (nth_error (h :: t) (length t)) eqn:N; [|discriminate].
  intros [= ->]. split; [lia|]. unfold el. cbn [pred]. symmetry. now apply nth_error_nth.
Qed.
Lemma py_get_last_ok (l : list R) : (0 < length l)%nat ->
  py_get l (-1) = Ok (el l (pred (length l))).
Proof.
  intros H. unfold py_get, py_index.
  replace ((0 <=? -1)%Z) with false by reflexivity. cbn [andb].
  replace ((- Z.of_nat (length l) <=? -1)%Z && (-1 <? 0)%Z)%bool with true
    by (symmetry; apply andb_true_iff; split; [apply Z.leb_le; lia|reflexivity]).
  replace (Z.to_nat (Z.of_nat (length l) + -1)) with (pred (length l)) by lia.
  destruct (nth_error l (pred (length l))) eqn:N.
  - f_equal. unfold el. symmetry. now apply nth_error_nth.
  - apply nth_error_None in N. lia.
Qed.

Lemma nth_In_range (l : list R) k : (k < length l)%nat -> In (el l k) l.
Proof. intros. now apply nth_In. Qed.

Lemma gauss_inv eig alpha beta x w :
  eig_sound eig -> gauss eig alpha beta = Ok (x, w) ->
  exists n V, length alpha = S n /\ length beta = S n /\ length x = S n /\ length w = S n
    /\ Forall (fun b => 0 <= b) beta
    /\ decomposes (S n) (tri (fun k => sqrt (el beta k)) (el alpha)) (el x) V
    /\ forall i, (i < S n)%nat -> el w i = el beta 0 * V O i ^ 2.
Proof.
  intros HE H. unfold gauss in H.
  destruct (stacked beta alpha) as [[s d]|] eqn:S0; [|discriminate].
  apply stacked_ok in S0 as (HL & -> & -> & HF). simpl in H.
  destruct (eig (map sqrt beta) alpha) as [[x' V]|] eqn:E; [|discriminate]. simpl in H.
  destruct (HE _ _ _ _ E) as (Lx & LV & FV & D).
  destruct (py_get beta 0) as [b0|] eqn:B; [|discriminate]. simpl in H.
  destruct (py_get V 0) as [v0|] eqn:V0; [|discriminate]. simpl in H.
  injection H as <- <-.
  destruct (py_get_0 _ _ B) as (bt & ->). destruct (py_get_0 _ _ V0) as (Vt & ->).
  assert (Lv : length v0 = length alpha) by (now inversion FV).
  exists (length bt), (fun k i => el (nth k (v0 :: Vt) []) i).
  simpl in HL. rewrite <- HL in *.
  split; [auto|split; [reflexivity|split; [auto|split; [now rewrite map_length|split; [assumption|]]]]].
  split.
  - destruct D as (D1 & D2 & D3). split; [|split; assumption].
    intros i k Hi Hk. rewrite <- D1 by assumption. apply sumn_ext. intros l Hl. f_equal.
    unfold tri.
    destruct (Nat.eqb k l); [reflexivity|].
    destruct (Nat.eqb l (S k)); [rewrite (el_map sqrt (b0 :: bt)) by (simpl; lia); reflexivity|].
    destruct (Nat.eqb k (S l)); [rewrite (el_map sqrt (b0 :: bt)) by (simpl; lia); reflexivity|].
    reflexivity.
  - intros i Hi. rewrite (el_map (fun v => b0 * v ^ 2)) by lia. reflexivity.
Qed.

Section Rule.
Variables (n : nat) (a b : nat -> R) (x : nat -> R) (V : nat -> nat -> R).
Hypothesis D : decomposes (S n) (tri (fun k => sqrt (b k)) a) x V.
Hypothesis Hb : forall k, (0 < k <= n)%nat -> 0 < b k.

Fixpoint sq (k : nat) : R := match k with O => 1 | S j => sq j * sqrt (b (S j)) end.
Lemma sq_pos k : (k <= n)%nat -> 0 < sq k.
Proof.
  induction k as [|k IH]; intros H; simpl; [lra|].
  apply Rmult_lt_0_compat; [apply IH; lia|]. apply sqrt_lt_R0, Hb. lia.
Qed.
Lemma sq_prod k : (k <= n)%nat -> b O * (sq k * sq k) = prodn b k.
Proof.
  induction k as [|k IH]; intros H; simpl; [ring|].
  rewrite <- IH by lia.
  replace (b O * (sq k * sqrt (b (S k)) * (sq k * sqrt (b (S k)))))
    with (b O * (sq k * sq k) * (sqrt (b (S k)) * sqrt (b (S k)))) by ring.
  rewrite sqrt_sqrt by (apply Rlt_le, Hb; lia). reflexivity.
Qed.

Lemma row i k : (i < S n)%nat -> (k < S n)%nat ->
  (match k with O => 0 | S j => sqrt (b k) * V j i end) + a k * V k i
  + (if Nat.ltb (S k) (S n) then sqrt (b (S k)) * V (S k) i else 0) = x i * V k i.
Proof.
  intros Hi Hk. rewrite <- (proj1 D i k Hi Hk).
  rewrite (tri_row (fun k => sqrt (b k)) a (fun l => V l i)) by assumption. reflexivity.
Qed.

Lemma vector i k : (i < S n)%nat -> (k < S n)%nat -> sq k * V k i = monic a b k (x i) * V O i.
Proof.
  intros Hi. induction k as [k IH] using lt_wf_ind. intros Hk.
  destruct k as [|[|k]].
  - rewrite monic_0. reflexivity.
  - pose proof (row i 0 Hi ltac:(lia)) as E. rewrite (proj2 (Nat.ltb_lt 1 (S n))) in E by lia.
    rewrite monic_1. simpl. nra.
  - pose proof (row i (S k) Hi ltac:(lia)) as E.
    rewrite (proj2 (Nat.ltb_lt (S (S k)) (S n))) in E by lia.
    rewrite monic_SS.
    replace (((x i - a (S k)) * monic a b (S k) (x i) - b (S k) * monic a b k (x i)) * V O i)
      with ((x i - a (S k)) * (monic a b (S k) (x i) * V O i)
            - b (S k) * (monic a b k (x i) * V O i)) by ring.
    rewrite <- (IH (S k)), <- (IH k) by lia.
    assert (Q : sqrt (b (S k)) * sqrt (b (S k)) = b (S k)) by (apply sqrt_sqrt, Rlt_le, Hb; lia).
    rewrite <- Q. simpl.
    replace (sq k * sqrt (b (S k)) * sqrt (b (S (S k))) * V (S (S k)) i)
      with (sq k * sqrt (b (S k)) * (sqrt (b (S (S k))) * V (S (S k)) i)) by ring.
    replace (sqrt (b (S (S k))) * V (S (S k)) i)
      with (x i * V (S k) i - a (S k) * V (S k) i - sqrt (b (S k)) * V k i) by lra.
    ring.
Qed.

Lemma first_nonzero i : (i < S n)%nat -> V O i <> 0.
Proof.
  intros Hi E.
  pose proof (proj1 (proj2 D) i i Hi Hi) as N. unfold delta in N. rewrite Nat.eqb_refl in N.
  rewrite sumn_0 in N; [lra|]. intros k Hk.
  pose proof (vector i k Hi Hk) as Q. rewrite E, Rmult_0_r in Q.
  apply Rmult_integral in Q as [Q|Q].
  - pose proof (sq_pos k ltac:(lia)). lra.
  - rewrite Q. ring.
Qed.

Lemma node_zero i : (i < S n)%nat -> monic a b (S n) (x i) = 0.
Proof.
  intros Hi. apply (Rmult_eq_reg_r (V O i)); [|now apply first_nonzero].
  rewrite Rmult_0_l.
  pose proof (row i n Hi ltac:(lia)) as E. rewrite Nat.ltb_irrefl in E.
  pose proof (fun k => vector i k Hi) as VV. pose proof Hb as Hp. clear D Hb.
  destruct n as [|m].
  - rewrite monic_1. lra.
  - rewrite monic_SS.
    pose proof (VV (S m) ltac:(lia)) as V1. pose proof (VV m ltac:(lia)) as V0.
    assert (Q : sqrt (b (S m)) * sqrt (b (S m)) = b (S m)) by (apply sqrt_sqrt, Rlt_le, Hp; lia).
    replace (((x i - a (S m)) * monic a b (S m) (x i) - b (S m) * monic a b m (x i)) * V O i)
      with ((x i - a (S m)) * (monic a b (S m) (x i) * V O i)
            - b (S m) * (monic a b m (x i) * V O i)) by ring.
    rewrite <- V1, <- V0, <- Q. simpl.
    replace ((x i - a (S m)) * (sq m * sqrt (b (S m)) * V (S m) i)
             - sqrt (b (S m)) * sqrt (b (S m)) * (sq m * V m i))
      with (sq m * sqrt (b (S m)) * (x i * V (S m) i - a (S m) * V (S m) i - sqrt (b (S m)) * V m i))
      by ring.
    replace (x i * V (S m) i - a (S m) * V (S m) i - sqrt (b (S m)) * V m i) with 0 by lra. ring.
Qed.

Lemma products k l : (k < S n)%nat -> (l < S n)%nat ->
  sumn (fun i => b O * V O i ^ 2 * (monic a b k (x i) * monic a b l (x i))) (S n)
  = delta k l * prodn b k.
Proof.
  intros Hk Hl.
  rewrite (sumn_ext _ (fun i => b O * (sq k * sq l) * (V k i * V l i))).
  - rewrite sumn_scal, (proj2 (proj2 D) k l Hk Hl). unfold delta.
    destruct (Nat.eqb_spec k l); [subst|ring]. rewrite sq_prod by lia. ring.
  - intros i Hi.
    replace (b O * V O i ^ 2 * (monic a b k (x i) * monic a b l (x i)))
      with (b O * ((monic a b k (x i) * V O i) * (monic a b l (x i) * V O i))) by ring.
    rewrite <- !vector by assumption. ring.
Qed.
End Rule.

(* The rule as a functional. *)
Lemma gauss_products eig alpha beta x w n :
  eig_sound eig -> gauss eig alpha beta = Ok (x, w) -> length alpha = S n ->
  (forall k, (0 < k <= n)%nat -> 0 < el beta k) ->
  (forall k l, (k <= n)%nat -> (l <= n)%nat ->
     rule x w (fun y => monic (el alpha) (el beta) k y * monic (el alpha) (el beta) l y)
     = delta k l * prodn (el beta) k)
  /\ forall i, (i <= n)%nat -> monic (el alpha) (el beta) (S n) (el x i) = 0.
Proof.
  intros HE HG Hn Hb. destruct (gauss_inv _ _ _ _ _ HE HG) as (m & V & La & Lb & Lx & Lw & HF & D & W).
  assert (m = n) by lia. subst m. split.
  - intros k l Hk Hl. unfold rule. rewrite Lx.
    rewrite <- (products n (el alpha) (el beta) (el x) V D Hb k l) by lia.
    apply sumn_ext. intros i Hi. fold (el w i). fold (el x i). rewrite W by assumption. reflexivity.
  - intros i Hi. apply (node_zero n _ _ _ V D Hb). lia.
Qed.

(* Agreement on products of the polynomials gives exactness. *)
Lemma exact_by_products L (a b : nat -> R) x w K M :
  functional L ->
  (forall k l, (k <= K)%nat -> (l <= M)%nat ->
     rule x w (fun y => monic a b k y * monic a b l y) = L (fun y => monic a b k y * monic a b l y)) ->
  exact L x w (S (K + M)).
Proof.
  intros HL H f Hf. symmetry. apply (agree L (rule x w) (S (K + M))); auto using functional_rule.
  intros j Hj. exists (fun y => monic a b (Nat.min j K) y * monic a b (j - Nat.min j K) y). split.
  - replace j with (Nat.min j K + (j - Nat.min j K))%nat at 1 by lia.
    apply leads_mult; apply leads_monic.
  - symmetry. apply H; lia.
Qed.

Lemma coefficients_product L a b n k l : functional L -> coefficients_of L a b n ->
  (k <= n)%nat -> (l <= n)%nat -> (k < n)%nat \/ (l < n)%nat ->
  L (fun y => monic a b k y * monic a b l y) = delta k l * prodn b k.
Proof.
  intros HL HC Hk Hl Hkl. unfold delta. destruct (Nat.eqb_spec k l) as [E|E].
  - subst. rewrite (norms L a b n) by (auto; lia). ring.
  - rewrite Rmult_0_l. destruct (lt_dec k l).
    + apply (proj2 HC). lia.
    + rewrite (proj1 HL _ (fun y => monic a b l y * monic a b k y)) by (intros; ring).
      apply (proj2 HC). lia.
Qed.

Lemma gauss_exact eig alpha beta x w L :
  eig_sound eig -> gauss eig alpha beta = Ok (x, w) ->
  (forall k, (0 < k < length alpha)%nat -> 0 < el beta k) ->
  functional L -> coefficients_of L (el alpha) (el beta) (length alpha) ->
  exact L x w (2 * length alpha).
Proof.
  intros HE HG Hb HL HC.
  destruct (gauss_inv _ _ _ _ _ HE HG) as (n & V & La & _ & Lx & _).
  destruct (gauss_products _ _ _ _ _ n HE HG La ltac:(intros; apply Hb; lia)) as (P & Z).
  replace (2 * length alpha)%nat with (S (length alpha + n))%nat by lia.
  apply (exact_by_products L (el alpha) (el beta)); [assumption|]. intros k l Hk Hl.
  destruct (Nat.eq_dec k (length alpha)) as [E|E].
  - rewrite (coefficients_product L _ _ (length alpha)) by (auto; lia).
    unfold delta. destruct (Nat.eqb_spec k l); [lia|]. rewrite Rmult_0_l.
    unfold rule. apply sumn_0. intros i Hi. rewrite E, La. fold (el x i).
    rewrite Z by lia. ring.
  - rewrite P by lia. symmetry. apply coefficients_product with (n := length alpha); auto; lia.
Qed.

(* ---- prescribed nodes ---- *)
Lemma set_last_length v l : length (set_last v l) = length l.
Proof. apply set_nth_length. Qed.
Lemma nth_set_nth (l : list R) i j v :
  el (set_nth i v l) j = if (Nat.eqb i j && Nat.ltb i (length l))%bool then v else el l j.
Proof.
  revert i j. induction l as [|h t IH]; intros i j.
  - rewrite Bool.andb_comm. change (length []) with O. destruct (Nat.ltb_spec i 0); [lia|].
    destruct i; reflexivity.
  - destruct i, j; try reflexivity. specialize (IH i j). unfold el in *. simpl. rewrite IH. reflexivity.
Qed.
Lemma set_last_el v l j : (0 < length l)%nat ->
  el (set_last v l) j = if Nat.eqb (pred (length l)) j then v else el l j.
Proof.
  intros H. unfold set_last. rewrite nth_set_nth.
  rewrite (proj2 (Nat.ltb_lt _ _)) by lia. now rewrite Bool.andb_true_r.
Qed.
Lemma el_removelast l k : (S k < length l)%nat -> el (removelast l) k = el l k.
Proof.
  revert k. induction l as [|h t IH]; intros k H; [simpl in H; lia|].
  destruct t as [|h' t]; [simpl in H; lia|].
  destruct k; [reflexivity|]. simpl in H.
  change (removelast (h :: h' :: t)) with (h :: removelast (h' :: t)).
  unfold el. simpl nth. apply (IH k). simpl. lia.
Qed.
Lemma removelast_length (l : list R) : length (removelast l) = pred (length l).
Proof.
  induction l as [|h t IH]; [reflexivity|]. destruct t; [reflexivity|].
  simpl in *. now rewrite IH.
Qed.
Lemma el_tl l k : el (tl l) k = el l (S k).
Proof. destruct l; [now destruct k|reflexivity]. Qed.

Lemma unit_rhs_ok n1 v f : unit_rhs n1 v = Ok f ->
  exists m, n1 = S (S m) /\ length f = S m
    /\ forall k, el f k = if Nat.eqb k m then v else 0.
Proof.
  destruct n1 as [|[|m]]; try discriminate. simpl. intros [= <-]. exists m.
  split; [reflexivity|]. split; [rewrite app_length, repeat_length; simpl; lia|].
  intros k. unfold el. destruct (Nat.eqb_spec k m) as [E|E].
  - subst. rewrite app_nth2; rewrite repeat_length; [|lia]. now rewrite Nat.sub_diag.
  - destruct (lt_dec k m).
    + rewrite app_nth1 by (rewrite repeat_length; lia). apply nth_repeat.
    + apply nth_overflow. rewrite app_length, repeat_length. simpl. lia.
Qed.

(* The system solved for a prescribed node. *)
Lemma shifted_solution sol alpha beta x0 u d l f g m :
  sol_sound sol -> shifted_rows alpha beta x0 = Ok (u, d, l) -> sol u d l f = Ok g ->
  length alpha = S (S m) -> length f = S m ->
  length beta = S (S m) /\ Forall (fun b => 0 <= b) beta /\ length g = S m
  /\ forall k, (k < S m)%nat ->
     (match k with O => 0 | S j => sqrt (el beta k) * el g j end) + (el alpha k - x0) * el g k
     + (if Nat.ltb (S k) (S m) then sqrt (el beta (S k)) * el g (S k) else 0) = el f k.
Proof.
  intros HS HR Hg La Lf. unfold shifted_rows in HR.
  destruct (stacked beta (map (fun a => a - x0) alpha)) as [[s d']|] eqn:S0; [|discriminate].
  apply stacked_ok in S0 as (Lb & -> & -> & HF). rewrite map_length in Lb.
  simpl in HR. injection HR as <- <- <-.
  destruct (HS _ _ _ _ _ Hg) as (Lg & HE). split; [lia|]. split; [assumption|]. split; [lia|].
  intros k Hk. rewrite <- HE by lia.
  rewrite <- (tri_row (fun k => sqrt (el beta k)) (fun k => el alpha k - x0) (el g)) by lia.
  rewrite Lf. apply sumn_ext. intros j Hj. f_equal. unfold tri, band.
  destruct (Nat.eqb_spec k j).
  - subst. rewrite el_removelast by (rewrite map_length; lia).
    rewrite (el_map (fun a => a - x0)) by lia. reflexivity.
  - destruct (Nat.eqb_spec j (S k)).
    + rewrite el_removelast by (rewrite map_length; lia). rewrite el_map by lia. reflexivity.
    + destruct (Nat.eqb_spec k (S j)); [|reflexivity]. subst k.
      rewrite el_tl, el_map by lia. reflexivity.
Qed.

Lemma gauss_eigenvalue eig alpha beta x w c v n :
  eig_sound eig -> gauss eig alpha beta = Ok (x, w) -> length alpha = S n ->
  (forall k, (k < S n)%nat ->
     (match k with O => 0 | S j => sqrt (el beta k) * v j end) + el alpha k * v k
     + (if Nat.ltb (S k) (S n) then sqrt (el beta (S k)) * v (S k) else 0) = c * v k) ->
  (exists k, (k < S n)%nat /\ v k <> 0) ->
  exists i, (i < length x)%nat /\ el x i = c.
Proof.
  intros HE HG Hn Hv Hne. destruct (gauss_inv _ _ _ _ _ HE HG) as (m & V & La & Lb & Lx & Lw & HF & D & W).
  assert (m = n) by lia. subst m. rewrite Lx.
  apply (eigenvalue (S n) _ (el x) V c v D (tri_sym _ _)); [|assumption].
  intros k Hk. rewrite (tri_row (fun k => sqrt (el beta k)) (el alpha) v) by assumption.
  now apply Hv.
Qed.

Lemma radau_inv eig sol alpha beta xr x w :
  outcome (radau eig sol alpha beta xr) = Ok (x, w) ->
  exists alphar, radau_shift sol alpha beta xr = Ok alphar /\ gauss eig alphar beta = Ok (x, w)
    /\ alpha_after (radau eig sol alpha beta xr) = alphar.
Proof.
  unfold radau. destruct (radau_shift sol alpha beta xr) as [ar|e]; simpl; [|discriminate].
  intros H. eauto.
Qed.

Lemma radau_shift_inv sol alpha beta xr alphar :
  sol_sound sol -> radau_shift sol alpha beta xr = Ok alphar ->
  exists m g, length alpha = S (S m) /\ length beta = S (S m) /\ alphar = set_last (xr + el g m) alpha
    /\ length g = S m /\ Forall (fun b => 0 <= b) beta
    /\ forall k, (k < S m)%nat ->
     (match k with O => 0 | S j => sqrt (el beta k) * el g j end) + (el alpha k - xr) * el g k
     + (if Nat.ltb (S k) (S m) then sqrt (el beta (S k)) * el g (S k) else 0)
     = if Nat.eqb k m then el beta (S m) else 0.
Proof.
  intros HS H. unfold radau_shift in H.
  destruct (unit_rhs (length alpha) 0) as [z|] eqn:Z; [|discriminate]. simpl in H.
  destruct (py_get beta (-1)) as [b|] eqn:B; [|discriminate]. simpl in H.
  destruct (unit_rhs (length alpha) b) as [f|] eqn:F; [|discriminate]. simpl in H.
  destruct (shifted_rows alpha beta xr) as [[[u d] l]|] eqn:SR; [|discriminate]. simpl in H.
  destruct (sol u d l f) as [g|] eqn:G; [|discriminate]. simpl in H.
  destruct (py_get g (-1)) as [dl|] eqn:DL; [|discriminate]. simpl in H. injection H as <-.
  destruct (unit_rhs_ok _ _ _ F) as (m & La & Lf & Ef).
  destruct (shifted_solution _ _ _ _ _ _ _ _ _ m HS SR G La Lf) as (Lb & HF & Lg & Eq).
  apply py_get_last in B as [_ ->]. apply py_get_last in DL as [_ ->].
  exists m, g. rewrite Lg, Lb in *. cbn [pred] in *.
  split; [assumption|]. split; [reflexivity|]. split; [reflexivity|]. split; [reflexivity|].
  split; [assumption|].
  intros k Hk. rewrite Eq by assumption. apply Ef.
Qed.

Lemma lobatto_inv sol alpha beta xl1 xl2 a b :
  sol_sound sol -> lobatto_ends sol alpha beta xl1 xl2 = Ok (a, b) ->
  exists m g1 g2, length alpha = S (S m) /\ length beta = S (S m)
    /\ a - el g1 m * b = xl1 /\ a - el g2 m * b = xl2
    /\ forall (g : list R) x0, (g = g1 /\ x0 = xl1) \/ (g = g2 /\ x0 = xl2) ->
       forall k, (k < S m)%nat ->
       (match k with O => 0 | S j => sqrt (el beta k) * el g j end) + (el alpha k - x0) * el g k
       + (if Nat.ltb (S k) (S m) then sqrt (el beta (S k)) * el g (S k) else 0)
       = if Nat.eqb k m then 1 else 0.
Proof.
  intros HS H. unfold lobatto_ends in H.
  destruct (unit_rhs (length alpha) 1) as [f|] eqn:F; [|discriminate]. simpl in H.
  destruct (shifted_rows alpha beta xl1) as [[[u1 d1] l1]|] eqn:S1; [|discriminate]. simpl in H.
  destruct (shifted_rows alpha beta xl2) as [[[u2 d2] l2]|] eqn:S2; [|discriminate]. simpl in H.
  destruct (sol u1 d1 l1 f) as [g1|] eqn:G1; [|discriminate]. simpl in H.
  destruct (sol u2 d2 l2 f) as [g2|] eqn:G2; [|discriminate]. simpl in H.
  destruct (py_get g1 (-1)) as [e1|] eqn:E1; [|discriminate]. simpl in H.
  destruct (py_get g2 (-1)) as [e2|] eqn:E2; [|discriminate]. simpl in H.
  destruct (unit_rhs_ok _ _ _ F) as (m & La & Lf & Ef).
  destruct (shifted_solution _ _ _ _ _ _ _ _ _ m HS S1 G1 La Lf) as (Lb & HF & Lg1 & Q1).
  destruct (shifted_solution _ _ _ _ _ _ _ _ _ m HS S2 G2 La Lf) as (_ & _ & Lg2 & Q2).
  apply py_get_last in E1 as [_ E1]. apply py_get_last in E2 as [_ E2].
  rewrite Lg1 in E1. rewrite Lg2 in E2. cbn [pred] in E1, E2. subst e1 e2.
  unfold solve2 in H. destruct (Req_EM_T (el g1 m) (el g2 m)) as [|N]; [discriminate|].
  injection H as <- <-.
  exists m, g1, g2. split; [assumption|]. split; [assumption|].
  split; [field; lra|]. split; [field; lra|].
  intros g x0 [[-> ->]|[-> ->]] k Hk; rewrite <- Ef; auto.
Qed.
