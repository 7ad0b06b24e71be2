(* Lemmas about common/orthopoly.py: sums, polynomials and Gauss rules. *)
From Coq Require Import Reals Psatz.
From Verif Require Import Base OrthoModel OrthoSpec.
Open Scope R_scope.
Local Notation length := List.length.

Lemma sumn_ext f g n : (forall i, (i < n)%nat -> f i = g i) -> sumn f n = sumn g n.
Proof.
  induction n as [|n IH]; simpl; intros H; [reflexivity|].
  rewrite IH by (intros; apply H; lia). now rewrite H by lia.
Qed.
Lemma sumn_plus f g n : sumn (fun i => f i + g i) n = sumn f n + sumn g n.
Proof. induction n as [|n IH]; simpl; [ring|rewrite IH; ring]. Qed.
Lemma sumn_scal c f n : sumn (fun i => c * f i) n = c * sumn f n.
Proof. induction n as [|n IH]; simpl; [ring|rewrite IH; ring]. Qed.
Lemma sumn_0 f n : (forall i, (i < n)%nat -> f i = 0) -> sumn f n = 0.
Proof.
  intros H. rewrite (sumn_ext f (fun _ => 0)) by auto.
  induction n as [|n IH]; simpl; [reflexivity|]. rewrite IH; [ring|intros; apply H; lia].
Qed.
Lemma sumn_swap f n m :
  sumn (fun i => sumn (fun j => f i j) m) n = sumn (fun j => sumn (fun i => f i j) n) m.
Proof.
  induction n as [|n IH]; simpl.
  - symmetry. now apply sumn_0.
  - rewrite IH, <- sumn_plus. reflexivity.
Qed.
Lemma sumn_at f j n :
  sumn (fun l => if Nat.eqb l j then f l else 0) n = if Nat.ltb j n then f j else 0.
Proof.
  induction n as [|n IH]; [reflexivity|]. simpl sumn. rewrite IH.
  destruct (Nat.eqb_spec n j) as [E|E].
  - subst. rewrite Nat.ltb_irrefl. replace (Nat.ltb j (S j)) with true; [ring|].
    symmetry; apply Nat.ltb_lt; lia.
  - replace (Nat.ltb j (S n)) with (Nat.ltb j n); [ring|].
    destruct (Nat.ltb_spec j n), (Nat.ltb_spec j (S n)); auto; lia.
Qed.
Lemma sumn_delta f j n : (j < n)%nat -> sumn (fun l => delta l j * f l) n = f j.
Proof.
  intros H. rewrite (sumn_ext _ (fun l => if Nat.eqb l j then f l else 0)).
  - rewrite sumn_at. now rewrite (proj2 (Nat.ltb_lt _ _) H).
  - intros i _. unfold delta. destruct (Nat.eqb i j); ring.
Qed.
Lemma sumn_nonneg f n : (forall i, (i < n)%nat -> 0 <= f i) -> 0 <= sumn f n.
Proof.
  induction n as [|n IH]; simpl; intros H; [lra|].
  pose proof (IH ltac:(intros; apply H; lia)). pose proof (H n ltac:(lia)). lra.
Qed.

Lemma tri_row u d v k n : (k < n)%nat ->
  sumn (fun l => tri u d k l * v l) n
  = (match k with O => 0 | S j => u k * v j end) + d k * v k
    + (if Nat.ltb (S k) n then u (S k) * v (S k) else 0).
Proof.
  intros H.
  rewrite (sumn_ext _ (fun l => (if Nat.eqb l k then d l * v l else 0)
            + ((if Nat.eqb l (S k) then u l * v l else 0)
            + (match k with O => 0 | S j => if Nat.eqb l j then u k * v l else 0 end)))).
  - rewrite !sumn_plus, !sumn_at. rewrite (proj2 (Nat.ltb_lt _ _) H).
    destruct k as [|j].
    + rewrite (sumn_0 (fun _ => 0)) by auto. ring.
    + rewrite (sumn_at (fun l => u (S j) * v l)).
      rewrite (proj2 (Nat.ltb_lt j n)) by lia. ring.
  - intros l _. unfold tri. rewrite (Nat.eqb_sym k l).
    destruct (Nat.eqb_spec l k); [|destruct (Nat.eqb_spec l (S k))].
    + subst. destruct (Nat.eqb_spec k (S k)); [lia|].
      destruct k; [ring|]. destruct (Nat.eqb_spec (S k) k); [lia|ring].
    + subst. destruct k as [|j]; [ring|]. destruct (Nat.eqb_spec (S (S j)) j); [lia|ring].
    + destruct k as [|j]; [simpl; ring|]. simpl. rewrite (Nat.eqb_sym j l).
      destruct (Nat.eqb l j); ring.
Qed.

Lemma tri_sym u d k l : tri u d k l = tri u d l k.
Proof.
  unfold tri. rewrite (Nat.eqb_sym l k).
  destruct (Nat.eqb_spec k l); [now subst|].
  destruct (Nat.eqb_spec l (S k)), (Nat.eqb_spec k (S l)); auto; lia.
Qed.

(* A number with a non-zero eigenvector is one of the eigenvalues. *)
Lemma eigenvalue n J x V c v :
  decomposes n J x V -> (forall k l, J k l = J l k) ->
  (forall k, (k < n)%nat -> sumn (fun l => J k l * v l) n = c * v k) ->
  (exists k, (k < n)%nat /\ v k <> 0) ->
  exists i, (i < n)%nat /\ x i = c.
Proof.
  intros (HJ & _ & HR) HS Hv (k0 & Hk0 & Hne).
  set (y := fun i => sumn (fun k => V k i * v k) n).
  assert (Hy : forall i, (i < n)%nat -> (x i - c) * y i = 0).
  { intros i Hi.
    assert (E : sumn (fun k => sumn (fun l => V k i * (J k l * v l)) n) n = c * y i).
    { unfold y. rewrite <- sumn_scal. apply sumn_ext. intros k Hk.
      rewrite sumn_scal, Hv by lia. ring. }
    rewrite sumn_swap in E.
    rewrite (sumn_ext _ (fun l => x i * (V l i * v l))) in E.
    - rewrite sumn_scal in E. fold (y i) in E. nra.
    - intros l Hl. rewrite (sumn_ext _ (fun k => v l * (J l k * V k i))).
      + rewrite sumn_scal, HJ by lia. ring.
      + intros k Hk. rewrite (HS k l). ring. }
  destruct (Classical_Prop.classic (exists i, (i < n)%nat /\ x i = c)) as [|Hno]; [assumption|].
  exfalso. apply Hne.
  assert (Hz : forall i, (i < n)%nat -> y i = 0).
  { intros i Hi. specialize (Hy i Hi). apply Rmult_integral in Hy as [Hy|Hy]; [|assumption].
    exfalso. apply Hno. exists i. split; [assumption|lra]. }
  assert (E : sumn (fun i => V k0 i * y i) n = v k0).
  { unfold y.
    rewrite (sumn_ext _ (fun i => sumn (fun k => v k * (V k i * V k0 i)) n)).
    - rewrite sumn_swap. rewrite (sumn_ext _ (fun k => delta k k0 * v k)).
      + now apply sumn_delta.
      + intros k Hk. rewrite sumn_scal, HR by lia. ring.
    - intros i Hi. rewrite <- sumn_scal. apply sumn_ext. intros; ring. }
  rewrite <- E. apply sumn_0. intros i Hi. rewrite Hz by lia. ring.
Qed.

(* ---- the monic polynomials ---- *)
Lemma monic_0 a b x : monic a b 0 x = 1.
Proof. reflexivity. Qed.
Lemma monic_1 a b x : monic a b 1 x = x - a O.
Proof. unfold monic. simpl. ring. Qed.
Lemma monic_pair_snd a b k x : snd (monic_pair a b (S k) x) = monic a b k x.
Proof. unfold monic. simpl. destruct (monic_pair a b k x). reflexivity. Qed.
Lemma monic_SS a b k x :
  monic a b (S (S k)) x = (x - a (S k)) * monic a b (S k) x - b (S k) * monic a b k x.
Proof.
  rewrite <- (monic_pair_snd a b k x). unfold monic.
  change (monic_pair a b (S (S k)) x)
    with (let '(p, q) := monic_pair a b (S k) x in ((x - a (S k)) * p - b (S k) * q, p)).
  destruct (monic_pair a b (S k) x). reflexivity.
Qed.
Lemma monic_ext a b a' b' n :
  (forall k, (k < n)%nat -> a k = a' k) -> (forall k, (0 < k < n)%nat -> b k = b' k) ->
  forall x k, (k <= n)%nat -> monic a b k x = monic a' b' k x.
Proof.
  intros Ha Hb x k. induction k as [k IH] using lt_wf_ind. intros Hk.
  destruct k as [|[|k]]; [reflexivity| |].
  - rewrite !monic_1, Ha by lia. reflexivity.
  - rewrite !monic_SS, Ha, Hb by lia. rewrite !IH by lia. reflexivity.
Qed.

(* ---- polynomial functions ---- *)
Lemma poly_ext d f g : (forall x, f x = g x) -> poly_lt d f -> poly_lt d g.
Proof. intros E (c & H). exists c. intros x. now rewrite <- E. Qed.
Lemma poly_weaken d e f : (d <= e)%nat -> poly_lt d f -> poly_lt e f.
Proof.
  intros L (c & H). exists (fun j => if Nat.ltb j d then c j else 0). intros x. rewrite H.
  clear H. induction L as [|e L IH].
  - apply sumn_ext. intros i Hi. now rewrite (proj2 (Nat.ltb_lt _ _) Hi).
  - simpl. rewrite <- IH. destruct (Nat.ltb_spec e d); [lia|ring].
Qed.
Lemma poly_lin d f g u v : poly_lt d f -> poly_lt d g -> poly_lt d (fun x => u * f x + v * g x).
Proof.
  intros (c & H) (c' & H'). exists (fun j => u * c j + v * c' j). intros x.
  rewrite H, H', <- !sumn_scal, <- sumn_plus. apply sumn_ext. intros; ring.
Qed.
Lemma poly_zero d : poly_lt d (fun _ => 0).
Proof. exists (fun _ => 0). intros x. symmetry. apply sumn_0. intros; ring. Qed.
Lemma poly_scal d f u : poly_lt d f -> poly_lt d (fun x => u * f x).
Proof.
  intros H. apply (poly_ext _ (fun x => u * f x + 0 * f x)); [intros; ring|].
  now apply poly_lin.
Qed.
Lemma poly_plus d f g : poly_lt d f -> poly_lt d g -> poly_lt d (fun x => f x + g x).
Proof.
  intros H H'. apply (poly_ext _ (fun x => 1 * f x + 1 * g x)); [intros; ring|].
  now apply poly_lin.
Qed.
Lemma poly_x d f : poly_lt d f -> poly_lt (S d) (fun x => x * f x).
Proof.
  intros (c & H). exists (fun j => match j with O => 0 | S i => c i end). intros x. rewrite H.
  clear H. induction d as [|d IH]; [simpl; ring|].
  change (sumn ?F (S (S d))) with (sumn F (S d) + F (S d)).
  rewrite <- IH. simpl. ring.
Qed.
Lemma poly_xk k d f : poly_lt d f -> poly_lt (k + d) (fun x => x ^ k * f x).
Proof.
  intros H. induction k as [|k IH]; simpl.
  - apply (poly_ext _ f); [intros; ring|assumption].
  - apply (poly_ext _ (fun x => x * (x ^ k * f x))); [intros; ring|]. now apply poly_x.
Qed.
Lemma poly_const u : poly_lt 1 (fun _ => u).
Proof. exists (fun _ => u). intros x. simpl. ring. Qed.
Lemma poly_pow k : poly_lt (S k) (fun x => x ^ k).
Proof.
  apply (poly_ext _ (fun x => x ^ k * 1)); [intros; ring|].
  replace (S k) with (k + 1)%nat by lia. apply poly_xk, poly_const.
Qed.
Lemma poly_mult d e f g : poly_lt (S d) f -> poly_lt (S e) g -> poly_lt (S (d + e)) (fun x => f x * g x).
Proof.
  intros (c & H) Hg.
  assert (G : forall m, (m <= S d)%nat ->
            poly_lt (S (d + e)) (fun x => sumn (fun j => c j * x ^ j) m * g x)).
  { induction m as [|m IH]; intros Hm.
    - apply (poly_ext _ (fun _ => 0)); [intros; simpl; ring|apply poly_zero].
    - apply (poly_ext _ (fun x => sumn (fun j => c j * x ^ j) m * g x + c m * (x ^ m * g x)));
        [intros; simpl; ring|].
      apply poly_plus; [apply IH; lia|]. apply poly_scal.
      apply (poly_weaken (m + S e)); [lia|]. now apply poly_xk. }
  apply (poly_ext _ _ _ (fun x => eq_sym (f_equal (fun y => y * g x) (H x)))).
  apply G. lia.
Qed.

Lemma polynomial_lin f g u v : polynomial f -> polynomial g -> polynomial (fun x => u * f x + v * g x).
Proof.
  intros (d & H) (e & H'). exists (Nat.max d e).
  apply poly_lin; [apply (poly_weaken d)|apply (poly_weaken e)]; auto; lia.
Qed.
Lemma polynomial_mult f g : polynomial f -> polynomial g -> polynomial (fun x => f x * g x).
Proof.
  intros (d & H) (e & H'). exists (S (d + e)).
  apply poly_mult; [apply (poly_weaken d)|apply (poly_weaken e)]; auto; lia.
Qed.
Lemma polynomial_ext f g : (forall x, f x = g x) -> polynomial f -> polynomial g.
Proof. intros E (d & H). exists d. now apply (poly_ext _ f). Qed.
Lemma polynomial_const u : polynomial (fun _ => u).
Proof. exists 1%nat. apply poly_const. Qed.
Lemma polynomial_x : polynomial (fun x => x).
Proof. exists 2%nat. apply (poly_ext _ (fun x => x ^ 1)); [intros; ring|]. apply poly_pow. Qed.

(* leading coefficient one *)
Definition leads (d : nat) (f : R -> R) : Prop := poly_lt d (fun x => f x - x ^ d).
Lemma leads_poly d f : leads d f -> poly_lt (S d) f.
Proof.
  intros H. apply (poly_ext _ (fun x => (f x - x ^ d) + x ^ d)); [intros; ring|].
  apply poly_plus; [apply (poly_weaken d); auto; lia|apply poly_pow].
Qed.
Lemma leads_mult d e f g : leads d f -> leads e g -> leads (d + e) (fun x => f x * g x).
Proof.
  intros Hf Hg. unfold leads.
  apply (poly_ext _ (fun x => x ^ d * (g x - x ^ e) + (f x - x ^ d) * g x)).
  { intros x. rewrite pow_add. ring. }
  apply poly_plus; [now apply poly_xk|].
  destruct d as [|d].
  - apply (poly_ext _ (fun _ => 0)); [|apply poly_zero].
    destruct Hf as (c & Hc). intros x. rewrite Hc. simpl. ring.
  - apply (poly_mult d e (fun x => f x - x ^ S d)); [assumption|]. now apply leads_poly.
Qed.
Lemma leads_monic a b k : leads k (monic a b k).
Proof.
  induction k as [k IH] using lt_wf_ind. destruct k as [|[|k]].
  - apply (poly_ext _ (fun _ => 0)); [intros; rewrite monic_0; simpl; ring|apply poly_zero].
  - apply (poly_ext _ (fun _ => - a O)); [intros; rewrite monic_1; simpl; ring|apply poly_const].
  - unfold leads.
    apply (poly_ext _ (fun x => (x * (monic a b (S k) x - x ^ S k)
             + (- a (S k)) * monic a b (S k) x) + (- b (S k)) * monic a b k x)).
    { intros x. rewrite monic_SS. simpl. ring. }
    apply poly_plus; [apply poly_plus|].
    + apply poly_x. apply IH. lia.
    + apply poly_scal, leads_poly, IH. lia.
    + apply poly_scal. apply (poly_weaken (S k)); [lia|]. apply leads_poly, IH. lia.
Qed.
Lemma polynomial_monic a b k : polynomial (monic a b k).
Proof. exists (S k). apply leads_poly, leads_monic. Qed.

(* ---- linear functionals ---- *)
Lemma functional_plus L f g : functional L -> polynomial f -> polynomial g ->
  L (fun x => f x + g x) = L f + L g.
Proof.
  intros (HE & HL) Hf Hg. rewrite (HE _ (fun x => 1 * f x + 1 * g x)) by (intros; ring).
  rewrite HL by assumption. ring.
Qed.
Lemma functional_scal L f u : functional L -> polynomial f -> L (fun x => u * f x) = u * L f.
Proof.
  intros (HE & HL) Hf. rewrite (HE _ (fun x => u * f x + 0 * f x)) by (intros; ring).
  rewrite HL by assumption. ring.
Qed.
Lemma functional_0 L : functional L -> L (fun _ => 0) = 0.
Proof.
  intros H. pose proof (functional_scal L (fun _ => 0) 0 H (polynomial_const 0)) as E.
  rewrite (proj1 H _ (fun _ => 0)) in E by (intros; ring). lra.
Qed.
Lemma functional_rule x w : functional (rule x w).
Proof.
  split; unfold rule.
  - intros f g E. apply sumn_ext. intros; now rewrite E.
  - intros f g u v _ _. rewrite <- !sumn_scal, <- sumn_plus. apply sumn_ext. intros; ring.
Qed.

Lemma agree L M d :
  functional L -> functional M ->
  (forall j, (j < d)%nat -> exists e, leads j e /\ L e = M e) ->
  forall f, poly_lt d f -> L f = M f.
Proof.
  intros HL HM. induction d as [|d IH]; intros He f (c & Hf).
  - rewrite (proj1 HL f (fun _ => 0)), (proj1 HM f (fun _ => 0)) by (intros; now rewrite Hf).
    now rewrite !functional_0.
  - destruct (He d ltac:(lia)) as (e & Hl & E).
    assert (P : poly_lt d (fun x => f x - c d * e x)).
    { apply (poly_ext _ (fun x => sumn (fun j => c j * x ^ j) d + (- c d) * (e x - x ^ d))).
      - intros x. rewrite Hf. simpl. ring.
      - apply poly_plus; [exists c; reflexivity|]. now apply poly_scal. }
    assert (Pe : polynomial e) by (exists (S d); now apply leads_poly).
    assert (S : forall K, functional K -> K f = K (fun x => f x - c d * e x) + c d * K e).
    { intros K HK. rewrite <- functional_scal by assumption.
      rewrite <- functional_plus; [|assumption|now exists d|].
      - apply HK. intros; ring.
      - apply (polynomial_ext (fun x => c d * e x + 0 * e x)); [intros; ring|].
        now apply polynomial_lin. }
    rewrite (S L HL), (S M HM), E. f_equal. apply IH; [|assumption].
    intros j Hj. apply He. lia.
Qed.

(* ---- the norms that go with the recursion coefficients ---- *)
Lemma functional_3 L f g h u v w :
  functional L -> polynomial f -> polynomial g -> polynomial h ->
  L (fun x => u * f x + v * g x + w * h x) = u * L f + v * L g + w * L h.
Proof.
  intros HL Hf Hg Hh.
  rewrite (proj1 HL _ (fun x => 1 * (u * f x + v * g x) + w * h x)) by (intros; ring).
  rewrite (proj2 HL) by (auto; now apply polynomial_lin).
  rewrite (proj2 HL) by assumption. ring.
Qed.

Lemma norms L a b n : functional L -> coefficients_of L a b n ->
  forall k, (k < n)%nat -> L (fun x => monic a b k x * monic a b k x) = prodn b k.
Proof.
  intros HL (H0 & HO) k. induction k as [|k IH]; intros Hk.
  - rewrite (proj1 HL _ (fun _ => 1)) by (intros; rewrite monic_0; ring). exact H0.
  - simpl. rewrite <- IH by lia.
    (* x p_k p_{k+1} evaluated in two ways *)
    assert (P : forall i j, polynomial (fun x => monic a b i x * monic a b j x))
      by (intros; apply polynomial_mult; apply polynomial_monic).
    pose proof (HO k (S (S k)) ltac:(lia)) as E.
    rewrite (proj1 HL _ (fun x => 1 * (x * monic a b k x * monic a b (S k) x)
        + (- a (S k)) * (monic a b k x * monic a b (S k) x)
        + (- b (S k)) * (monic a b k x * monic a b k x))) in E
      by (intros; rewrite monic_SS; ring).
    rewrite functional_3 in E; auto.
    2:{ apply polynomial_mult; [apply polynomial_mult|]; auto using polynomial_x, polynomial_monic. }
    rewrite HO in E by lia.
    assert (F : L (fun x => x * monic a b k x * monic a b (S k) x)
                = L (fun x => monic a b (S k) x * monic a b (S k) x)).
    { destruct k as [|k].
      - rewrite (proj1 HL _ (fun x => 1 * (monic a b 1 x * monic a b 1 x)
                + a O * (monic a b 0 x * monic a b 1 x) + 0 * (monic a b 0 x * monic a b 1 x)))
          by (intros; rewrite monic_0, monic_1; ring).
        rewrite functional_3 by auto. rewrite (HO O 1%nat) by lia. ring.
      - rewrite (proj1 HL _ (fun x => 1 * (monic a b (S (S k)) x * monic a b (S (S k)) x)
                + a (S k) * (monic a b (S k) x * monic a b (S (S k)) x)
                + b (S k) * (monic a b k x * monic a b (S (S k)) x)))
          by (intros; rewrite monic_SS; ring).
        rewrite functional_3 by auto.
        rewrite (HO (S k) (S (S k))), (HO k (S (S k))) by lia. ring. }
    rewrite F in E. lra.
Qed.
