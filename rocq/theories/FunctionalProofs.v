From Coq Require Import Reals Lra Psatz Permutation.
From Verif Require Import Base FunctionalModel.
Open Scope R_scope.

(* ---------- specification ---------- *)
Definition factor (own : Z) (lx : leg * R) : R :=
  if (side (fst lx) =? own)%Z then snd lx else 1 - eta (fst lx) * snd lx.
Fixpoint prod (g : leg * R -> R) (l : list (leg * R)) : R :=
  match l with [] => 1 | a :: r => g a * prod g r end.
(* the gain term: occupations of the right side, blocking of the left *)
Definition gain (l : list (leg * R)) : R := prod (factor 1) l.
(* the loss term: occupations of the left side, blocking of the right *)
Definition loss (l : list (leg * R)) : R := prod (factor (-1)) l.
Definition nonneg (f : list R) : Prop := Forall (fun x => 0 <= x) f.
Definition sides_ok (ls : list leg) : Prop := Forall (fun l => side l = 1%Z \/ side l = (-1)%Z) ls.

Lemma F_loop_no_skip own skip : forall ls f i temp, length ls = length f -> (skip < i)%Z -> nonneg f ->
  F_loop own skip i ls f temp = Ok (temp * prod (factor own) (combine ls f)).
Proof.
  induction ls as [|l ls IH]; intros [|x f] i temp HL Hi Hf; cbn in HL; try lia; cbn [F_loop combine prod].
  - now rewrite Rmult_1_r.
  - inversion Hf as [|? ? Hx Hr]; subst. destruct (Z.eqb_spec i skip); [lia|].
    destruct (Rlt_dec x 0); [lra|]. rewrite IH by (auto; lia). f_equal. unfold factor at 2. cbn [fst snd]. ring.
Qed.
Lemma F_loop_skip0 own l x ls f temp : length ls = length f -> nonneg f ->
  F_loop own 0 0 (l :: ls) (x :: f) temp = Ok (temp * prod (factor own) (combine ls f)).
Proof. intros HL Hf. cbn [F_loop Z.eqb]. apply F_loop_no_skip; auto. lia. Qed.
Lemma F_loop_noskip_m1 own ls f temp : length ls = length f -> nonneg f ->
  F_loop own (-1) 0 ls f temp = Ok (temp * prod (factor own) (combine ls f)).
Proof. intros HL Hf. apply F_loop_no_skip; auto. lia. Qed.
Lemma F_loop_negative own skip : forall ls f i temp, length ls = length f ->
  (skip < i)%Z -> Exists (fun x => x < 0) f -> F_loop own skip i ls f temp = Raise RuntimeError.
Proof.
  induction ls as [|l ls IH]; intros [|x f] i temp HL Hi Hf; cbn in HL; try lia; cbn [F_loop].
  - inversion Hf.
  - destruct (Z.eqb_spec i skip); [lia|]. destruct (Rlt_dec x 0); [reflexivity|].
    apply IH; [lia|lia|]. inversion Hf; subst; [contradiction|assumption].
Qed.

(* the pieces *)
Lemma F1_value l x ls f : length ls = length f -> nonneg f ->
  functional F1 (l :: ls) (x :: f) = Ok (gain (combine ls f)).
Proof. intros HL Hf. unfold functional, F_1, F_B. rewrite F_loop_skip0 by auto. f_equal. unfold gain. ring. Qed.
Lemma Ff_value l x ls f : length ls = length f -> nonneg f ->
  functional Ff (l :: ls) (x :: f) = Ok (- loss (combine ls f) - eta l * gain (combine ls f)).
Proof.
  intros HL Hf. unfold functional, F_f, F_A, F_B. rewrite !F_loop_skip0 by auto. cbn [rbind eta0].
  f_equal. unfold loss, gain. ring.
Qed.
Lemma decay_value l x ls f : length ls = length f -> nonneg f ->
  functional Decay (l :: ls) (x :: f) = Ok (- loss (combine ls f)).
Proof. intros HL Hf. unfold functional, F_decay, F_A. rewrite F_loop_skip0 by auto. f_equal. unfold loss. ring. Qed.
Lemma creation_value ls f : length ls = length f -> nonneg f ->
  functional Creation ls f = Ok (gain (combine ls f)).
Proof. intros HL Hf. unfold functional, F_creation, F_B. rewrite F_loop_noskip_m1 by auto. f_equal. unfold gain. ring. Qed.

Lemma full_value l x ls f : length ls = length f -> nonneg f -> side l = (-1)%Z ->
  functional Full (l :: ls) (x :: f) = Ok (gain (combine (l :: ls) (x :: f)) - loss (combine (l :: ls) (x :: f))).
Proof.
  intros HL Hf Hs.
  pose proof (F1_value l x ls f HL Hf) as H1. pose proof (Ff_value l x ls f HL Hf) as H2.
  unfold functional in *. rewrite H1. cbn [rbind]. rewrite H2. cbn [rbind]. f_equal.
  unfold gain, loss. cbn [combine prod f0]. unfold factor at 4 6. cbn [fst snd]. rewrite Hs. cbn [Z.eqb Pos.eqb]. ring.
Qed.

(* detailed balance *)
Definition equil (x eta : R) : R := 1 / (exp x + eta).

Fixpoint side_sum (own : Z) (l : list (leg * R)) (x : list R) : R :=
  match l, x with
  | a :: l', y :: x' => (if (side (fst a) =? own)%Z then y else 0) + side_sum own l' x'
  | _, _ => 0
  end.

Lemma prod_equil own : forall (ls : list leg) (x : list R), length ls = length x ->
  Forall2 (fun l y => 0 < exp y + eta l) ls x ->
  prod (factor own) (combine ls (map (fun ly => equil (snd ly) (eta (fst ly))) (combine ls x)))
  = prod (fun lx => snd lx) (combine ls (map (fun ly => equil (snd ly) (eta (fst ly))) (combine ls x)))
    * exp (fold_right Rplus 0 (map (fun ly => if (side (fst ly) =? own)%Z then 0 else snd ly) (combine ls x))).
Proof.
  induction ls as [|l ls IH]; intros [|y x] HL HF; cbn in HL; try lia; cbn [combine map prod fold_right].
  - rewrite exp_0. ring.
  - inversion HF as [|? ? ? ? Hy Hr]; subst. rewrite IH by (auto; lia). cbn [fst snd].
    rewrite exp_plus. unfold factor at 1. cbn [fst snd]. destruct (side l =? own)%Z.
    + rewrite exp_0. ring.
    + unfold equil at 1. replace (1 - eta l * (1 / (exp y + eta l))) with (exp y * equil y (eta l)).
      * ring.
      * unfold equil. field. lra.
Qed.
Definition charge (ls : list leg) (x : list R) : R :=
  fold_right Rplus 0 (map (fun ly => IZR (side (fst ly)) * snd ly) (combine ls x)).
Lemma sums_charge ls x : length ls = length x -> sides_ok ls ->
  charge ls x = fold_right Rplus 0 (map (fun ly => if (side (fst ly) =? -1)%Z then 0 else snd ly) (combine ls x))
              - fold_right Rplus 0 (map (fun ly => if (side (fst ly) =? 1)%Z then 0 else snd ly) (combine ls x)).
Proof.
  unfold charge. revert x. induction ls as [|l ls IH]; intros [|y x] HL Hs; cbn in HL; try lia; cbn [combine map fold_right].
  - ring.
  - inversion Hs as [|? ? Hl Hr]; subst. rewrite IH by (auto; lia). cbn [fst snd].
    destruct Hl as [E|E]; rewrite E; cbn [Z.eqb Pos.eqb]; lra.
Qed.
Lemma prod_pos g : forall l, (forall a, In a l -> 0 < g a) -> 0 < prod g l.
Proof. induction l as [|a l IH]; intros H; cbn; [lra|]. apply Rmult_lt_0_compat; [apply H; now left|]. apply IH. intros b Hb. apply H. now right. Qed.
Lemma prod_nonneg g : forall l, (forall a, In a l -> 0 <= g a) -> 0 <= prod g l.
Proof. induction l as [|a l IH]; intros H; cbn; [lra|]. apply Rmult_le_pos; [apply H; now left|]. apply IH. intros b Hb. apply H. now right. Qed.

Definition eq_occ (ls : list leg) (x : list R) : list R := map (fun ly => equil (snd ly) (eta (fst ly))) (combine ls x).
Lemma eq_occ_length ls x : length ls = length x -> length (eq_occ ls x) = length ls.
Proof. intros H. unfold eq_occ. rewrite map_length, combine_length. lia. Qed.
Lemma eq_occ_pos : forall ls x, Forall2 (fun l y => 0 < exp y + eta l) ls x -> Forall (fun v => 0 < v) (eq_occ ls x).
Proof.
  intros ls x H. unfold eq_occ. induction H as [|l y ls x Hy Hr IH]; cbn; constructor; auto.
  unfold equil. cbn. apply Rdiv_lt_0_compat; lra.
Qed.
Lemma pos_nonneg f : Forall (fun v => 0 < v) f -> nonneg f.
Proof. intros H. eapply Forall_impl; [|exact H]. intros; cbn in *; lra. Qed.

(* gain - loss of an equilibrium-parametrised state has the sign of -(sum side*x) *)
Lemma gain_loss_equil ls x : length ls = length x -> sides_ok ls -> Forall2 (fun l y => 0 < exp y + eta l) ls x ->
  exists P u v, 0 < P /\ gain (combine ls (eq_occ ls x)) = P * exp u /\ loss (combine ls (eq_occ ls x)) = P * exp v /\
    charge ls x = v - u.
Proof.
  intros HL Hs HF.
  exists (prod (fun lx => snd lx) (combine ls (eq_occ ls x))).
  exists (fold_right Rplus 0 (map (fun ly => if (side (fst ly) =? 1)%Z then 0 else snd ly) (combine ls x))).
  exists (fold_right Rplus 0 (map (fun ly => if (side (fst ly) =? -1)%Z then 0 else snd ly) (combine ls x))).
  split; [|split; [|split]].
  - apply prod_pos. intros [l v] Hin. apply in_combine_r in Hin. cbn.
    pose proof (eq_occ_pos ls x HF) as HP. rewrite Forall_forall in HP. now apply HP.
  - unfold gain, eq_occ. now apply prod_equil.
  - unfold loss, eq_occ. now apply prod_equil.
  - rewrite sums_charge by auto. ring.
Qed.

Lemma exp_le_iff a b : a <= b <-> exp a <= exp b.
Proof.
  split; intros H.
  - destruct (Req_dec a b) as [->|]; [lra|]. left. apply exp_increasing. lra.
  - destruct (Rle_dec a b); auto. assert (exp b < exp a) by (apply exp_increasing; lra). lra.
Qed.

(* occupations as equilibrium parameters *)
Definition xi (v eta : R) : R := ln (1 / v - eta).
Lemma equil_xi v e : 0 < v -> 0 < 1 / v - e -> equil (xi v e) e = v.
Proof.
  intros Hv Hx. unfold equil, xi. rewrite exp_ln by exact Hx. field. split; [lra|].
  assert (v * (1 / v) = 1) by (field; lra). nra.
Qed.
Lemma eq_occ_xi ls f : length ls = length f -> Forall2 (fun l v => 0 < v /\ 0 < 1 / v - eta l) ls f ->
  eq_occ ls (map (fun lv => xi (snd lv) (eta (fst lv))) (combine ls f)) = f.
Proof.
  intros HL H. unfold eq_occ. induction H as [|l v ls f (Hv & Hx) Hr IH]; cbn in *; [reflexivity|].
  rewrite IH by lia. f_equal. now apply equil_xi.
Qed.

(* swapping sides *)
Definition flip (l : leg) : leg := mkLeg (- side l) (eta l).
Lemma prod_flip own l : prod (factor own) (map (fun a => (flip (fst a), snd a)) l) = prod (factor (- own)) l.
Proof.
  induction l as [|[a x] l IH]; cbn [map prod]; [reflexivity|]. rewrite IH. f_equal. unfold factor, flip. cbn [fst snd side eta].
  destruct (Z.eqb_spec (- side a) own); destruct (Z.eqb_spec (side a) (- own)); try reflexivity; lia.
Qed.
Lemma prod_perm g l l' : Permutation l l' -> prod g l = prod g l'.
Proof. induction 1; cbn; try congruence; try lra. Qed.

(* admissible occupations *)
Definition admissible (a : leg * R) : Prop := 0 <= snd a /\ 0 <= 1 - eta (fst a) * snd a.
Lemma prod_admissible own l : Forall admissible l -> 0 <= prod (factor own) l.
Proof.
  intros H. apply prod_nonneg. intros a Ha. rewrite Forall_forall in H. destruct (H a Ha). unfold factor. destruct (_ =? _)%Z; assumption.
Qed.
Lemma admissible_nonneg ls f : length ls = length f -> Forall admissible (combine ls f) -> nonneg f.
Proof.
  revert f. induction ls as [|l ls IH]; intros [|x f] HL H; cbn in HL; try lia; constructor.
  - inversion H as [|? ? (A & B) _]; subst. exact A.
  - apply IH; [lia|]. now inversion H.
Qed.
