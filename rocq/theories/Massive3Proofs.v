(* The integral of the decay at rest into massive products *)
From Coq Require Import Reals Lra Psatz.
From Coquelicot Require Import Coquelicot.
From Verif Require Import Base FunctionalModel DsModel BoundsModel BoundsProofs Integrate4Model ScaleProofs Decay4Proofs DalitzSpec DalitzProofs MassiveSpec MassiveProofs Massive2Proofs.
Open Scope R_scope.

(* from momenta to energies *)
Lemma subst_energy (f : R -> R) q a b v : 0 <= q -> 0 <= a <= b -> (forall x, energy a q <= x <= energy b q -> continuous f x) ->
  is_RInt f (energy a q) (energy b q) v -> is_RInt (fun p => velocity p q * f (energy p q)) a b v.
Proof.
  intros Hq [Ha Hb] HC HI. destruct (Req_dec q 0) as [->|N].
  - rewrite !energy_zero in HI by lra. eapply is_RInt_ext; [|exact HI]. intros x Hx. rewrite Rmin_left, Rmax_right in Hx by lra.
    rewrite energy_zero by lra. unfold velocity. destruct (Req_EM_T 0 0); [|lra]. symmetry. apply Rmult_1_l.
  - assert (Q : 0 < q ^ 2) by (apply pow2_gt_0; exact N).
    assert (M : forall x, a <= x <= b -> energy a q <= energy x q <= energy b q).
    { intros x Hx. unfold energy. split; apply sqrt_le_1_alt; apply Rplus_le_compat_r; apply pow_incr; lra. }
    assert (D : forall x, 0 < x ^ 2 + q ^ 2) by (intros x; pose proof (pow2_ge_0 x); lra).
    pose proof (is_RInt_comp (V := R_CompleteNormedModule) f (fun p => energy p q) (fun p => p / energy p q) a b) as S.
    cbv beta in S. rewrite (is_RInt_unique (V := R_CompleteNormedModule) _ _ _ _ HI) in S.
    eapply is_RInt_ext; [|apply S].
    + intros x _. unfold velocity. destruct (Req_EM_T q 0); [contradiction|]. reflexivity.
    + intros x Hx. rewrite Rmin_left, Rmax_right in Hx by lra. apply HC. now apply M.
    + intros x _. split.
      * unfold energy. auto_derive; [rewrite ?Rmult_1_r; specialize (D x); lra|].
        replace (x * (x * 1) + q * (q * 1)) with (x ^ 2 + q ^ 2) by ring. field. apply Rgt_not_eq, sqrt_lt_R0, D.
      * apply (ex_derive_continuous (V := R_NormedModule)). unfold energy. auto_derive. specialize (D x).
        replace (x * (x * 1) + q * (q * 1)) with (x ^ 2 + q ^ 2) by ring. repeat split; try exact D. apply Rgt_not_eq, sqrt_lt_R0, D.
Qed.

(* functions of the second energy that are quadratic, with continuous coefficients *)
Definition cont (c : R -> R) : Prop := forall x, continuous c x.
Definition quad2 (f : R -> R -> R) (F : R -> R -> R) : Prop := exists c0 c1 c2, cont c0 /\ cont c1 /\ cont c2 /\
  (forall x y, f x y = c0 x + c1 x * y + c2 x * y ^ 2) /\ (forall x y, F x y = c0 x * y + c1 x * (y ^ 2 / 2) + c2 x * (y ^ 3 / 3)).
Lemma cont_plus a b : cont a -> cont b -> cont (fun x => a x + b x).
Proof. intros A B x. apply (continuous_plus (V := R_NormedModule)); [apply A|apply B]. Qed.
Lemma cont_mult a b : cont a -> cont b -> cont (fun x => a x * b x).
Proof. intros A B x. apply (continuous_mult (K := R_AbsRing)); [apply A|apply B]. Qed.
Lemma cont_const k : cont (fun _ => k).
Proof. intros x. apply continuous_const. Qed.
Lemma cont_id : cont (fun x => x).
Proof. intros x. apply continuous_id. Qed.
Lemma quad2_const k : exists F, quad2 (fun _ _ => k) F.
Proof. eexists. exists (fun _ => k), (fun _ => 0), (fun _ => 0). split; [apply cont_const|]. split; [apply cont_const|]. split; [apply cont_const|]. split; [intros; ring|intros; reflexivity]. Qed.
Lemma quad2_plus f g F G : quad2 f F -> quad2 g G -> exists H, quad2 (fun x y => f x y + g x y) H.
Proof.
  intros (a0 & a1 & a2 & A0 & A1 & A2 & EA & _) (b0 & b1 & b2 & B0 & B1 & B2 & EB & _). eexists.
  exists (fun x => a0 x + b0 x), (fun x => a1 x + b1 x), (fun x => a2 x + b2 x). split; [now apply cont_plus|]. split; [now apply cont_plus|]. split; [now apply cont_plus|].
  split; [intros x y; rewrite EA, EB; ring|intros; reflexivity].
Qed.
Lemma quad2_scal k f F : quad2 f F -> exists H, quad2 (fun x y => k * f x y) H.
Proof.
  intros (a0 & a1 & a2 & A0 & A1 & A2 & EA & _). eexists.
  exists (fun x => k * a0 x), (fun x => k * a1 x), (fun x => k * a2 x).
  split; [apply cont_mult; [apply cont_const|assumption]|]. split; [apply cont_mult; [apply cont_const|assumption]|]. split; [apply cont_mult; [apply cont_const|assumption]|].
  split; [intros x y; rewrite EA; ring|intros; reflexivity].
Qed.
Lemma quad2_ext f g F : (forall x y, f x y = g x y) -> quad2 f F -> quad2 g F.
Proof. intros E (a0 & a1 & a2 & A0 & A1 & A2 & EA & EF). exists a0, a1, a2. repeat split; try assumption. intros x y. now rewrite <- E. Qed.
Lemma quad2_linear2 a b c a' b' c' : exists F, quad2 (fun x y => (a + b * x + c * y) * (a' + b' * x + c' * y)) F.
Proof.
  eexists. exists (fun x => (a + b * x) * (a' + b' * x)), (fun x => (a + b * x) * c' + c * (a' + b' * x)), (fun _ => c * c').
  assert (L : forall u v, cont (fun x => u + v * x)) by (intros u v; apply cont_plus; [apply cont_const|apply cont_mult; [apply cont_const|apply cont_id]]).
  split; [apply cont_mult; apply L|]. split; [apply cont_plus; apply cont_mult; try apply cont_const; apply L|]. split; [apply cont_const|].
  split; [intros; ring|intros; reflexivity].
Qed.
Lemma quad2_integral f F x a b : quad2 f F -> is_RInt (f x) a b (F x b - F x a).
Proof.
  intros (c0 & c1 & c2 & _ & _ & _ & EF & EP). rewrite !EP.
  apply (is_RInt_ext (fun y => c0 x + c1 x * y + c2 x * y ^ 2)); [intros y _; now rewrite EF|].
  apply (is_RInt_anti (fun y => c0 x * y + c1 x * (y ^ 2 / 2) + c2 x * (y ^ 3 / 3))); intros y.
  - auto_derive; [trivial|]. field.
  - apply (ex_derive_continuous (V := R_NormedModule)). auto_derive. trivial.
Qed.
Lemma quad2_continuous f F x y : quad2 f F -> continuous (f x) y.
Proof.
  intros (c0 & c1 & c2 & _ & _ & _ & EF & _). apply (continuous_ext (fun y => c0 x + c1 x * y + c2 x * y ^ 2)); [intros z; now rewrite EF|].
  apply (ex_derive_continuous (V := R_NormedModule)). auto_derive. trivial.
Qed.
Lemma quad2_along f F (h : R -> R) x : quad2 f F -> continuous h x -> continuous (fun x => F x (h x)) x.
Proof.
  intros (c0 & c1 & c2 & C0 & C1 & C2 & _ & EP) Hh.
  apply (continuous_ext (fun x => c0 x * h x + c1 x * (h x ^ 2 / 2) + c2 x * (h x ^ 3 / 3))); [intros z; now rewrite EP|].
  assert (HP : forall n k, continuous (fun x => h x ^ n / k) x).
  { intros n k. apply (continuous_comp h (fun y => y ^ n / k)); [exact Hh|]. apply (ex_derive_continuous (V := R_NormedModule)). auto_derive. trivial. }
  apply (continuous_plus (V := R_NormedModule) (fun x => c0 x * h x + c1 x * (h x ^ 2 / 2)) (fun x => c2 x * (h x ^ 3 / 3))).
  - apply (continuous_plus (V := R_NormedModule) (fun x => c0 x * h x) (fun x => c1 x * (h x ^ 2 / 2))).
    + apply (continuous_mult (K := R_AbsRing) c0 h); [apply C0|exact Hh].
    + apply (continuous_mult (K := R_AbsRing) c1 (fun x => h x ^ 2 / 2)); [apply C1|apply HP].
  - apply (continuous_mult (K := R_AbsRing) c2 (fun x => h x ^ 3 / 3)); [apply C2|apply HP].
Qed.
Lemma quad2_amplitude ms Ms : Forall (fun B => order_ok (order B)) Ms -> exists F, quad2 (amplitude_at ms Ms) F.
Proof.
  induction 1 as [|B l HB _ (F & IH)]; [exact (quad2_const 0)|].
  enough (T : exists G, quad2 (fun e1 e2 => let '(i, j, k, l) := order B in let d := four_dot ms (share (ms 0%nat) e1 e2) in K1 B * d i j * d k l + K2 B * ms i * ms j * d k l) G).
  { destruct T as (G & T). destruct (quad2_plus _ _ _ _ T IH) as (H & T'). exists H. eapply quad2_ext; [|exact T']. intros x y. cbn [amplitude_at fold_right]. fold (amplitude_at ms l x y). destruct (order B) as [[[i j] k] l']. reflexivity. }
  assert (G : forall k1 k2 a b c a' b' c', exists G, quad2 (fun x y => k1 * (a + b * x + c * y) * (a' + b' * x + c' * y) + k2 * (a' + b' * x + c' * y)) G).
  { intros k1 k2 a b c a' b' c'. destruct (quad2_linear2 a b c a' b' c') as (G1 & Q1). destruct (quad2_scal k1 _ _ Q1) as (G2 & Q2).
    destruct (quad2_linear2 1 0 0 a' b' c') as (G3 & Q3). destruct (quad2_scal k2 _ _ Q3) as (G4 & Q4). destruct (quad2_plus _ _ _ _ Q2 Q4) as (G5 & Q5).
    exists G5. eapply quad2_ext; [|exact Q5]. intros x y. cbv beta. ring. }
  assert (L : forall i j, (i < 4)%nat -> (j < 4)%nat -> i <> j -> exists a b c, forall x y, four_dot ms (share (ms 0%nat) x y) i j = a + b * x + c * y).
  { assert (LS : forall n, exists a b c, forall x y, share (ms 0%nat) x y n = a + b * x + c * y).
    { intros [|[|[|n]]]; cbn [share]; [exists (ms 0%nat), (-1), (-1)|exists 0, 1, 0|exists 0, 0, 1|exists (ms 0%nat), (-1), (-1)]; intros; ring. }
    intros i j Hi Hj N. unfold four_dot, recoil. destruct (LS j) as (a1 & b1 & c1 & L1). destruct (LS i) as (a2 & b2 & c2 & L2). destruct (LS (6 - i - j)%nat) as (a3 & b3 & c3 & L3).
    destruct (i =? 0)%nat; [|destruct (j =? 0)%nat].
    - exists (ms 0%nat * a1), (ms 0%nat * b1), (ms 0%nat * c1). intros x y. rewrite L1. ring.
    - exists (ms 0%nat * a2), (ms 0%nat * b2), (ms 0%nat * c2). intros x y. rewrite L2. ring.
    - set (k := (6 - i - j)%nat) in *. exists ((ms 0%nat ^ 2 + ms k ^ 2 - 2 * ms 0%nat * a3 - ms i ^ 2 - ms j ^ 2) / 2), (- ms 0%nat * b3), (- ms 0%nat * c3). intros x y. rewrite L3. field. }
  destruct (order B) as [[[i j] k] l']. destruct HB as (ND & Hi & Hj & Hk & Hl).
  assert (N1 : i <> j) by (inversion ND as [|? ? X _]; subst; intros ->; apply X; cbn; tauto).
  assert (N2 : k <> l') by (inversion ND as [|? ? _ X]; inversion X as [|? ? _ X']; inversion X' as [|? ? X'' _]; subst; intros ->; apply X''; cbn; tauto).
  destruct (L i j Hi Hj N1) as (a & b & c & E1). destruct (L k l' Hk Hl N2) as (a' & b' & c' & E2).
  destruct (G (K1 B) (K2 B * ms i * ms j) a b c a' b' c') as (G1 & Q). exists G1. eapply quad2_ext; [|exact Q]. intros x y. cbv zeta. now rewrite E1, E2.
Qed.
