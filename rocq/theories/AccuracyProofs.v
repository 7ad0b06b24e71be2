(* Accuracy of the table look-ups: the error of interpolation. *)
From Coq Require Import Reals Lra Lia List Psatz.
From Verif Require Import Base GridsModel GridsProofs.
Import ListNotations.
Open Scope R_scope.
Local Notation length := List.length.

(* u1 and u2 are the first two derivatives of u on [a,b]. *)
Definition twice (u u1 u2 : R -> R) (a b : R) : Prop :=
  forall t, a <= t <= b -> derivable_pt_lim u t (u1 t) /\ derivable_pt_lim u1 t (u2 t).

Lemma rolle : forall g g1 a b, a < b ->
  (forall t, a <= t <= b -> derivable_pt_lim g t (g1 t)) -> g a = g b ->
  exists c, a < c < b /\ g1 c = 0.
Proof.
  intros g g1 a b H D E. destruct (MVT_cor2 g g1 a b H D) as [c [H1 H2]].
  exists c. split; [exact H2|]. rewrite E in H1. nra.
Qed.

Lemma dlim_val : forall f x l l', derivable_pt_lim f x l -> l = l' -> derivable_pt_lim f x l'.
Proof. intros f x l l' H <-. exact H. Qed.

(* Three zeros of a function that differs from u by a quadratic *)
Lemma three_zeros : forall u u1 u2 p q r al be ga,
  p < q -> q < r -> twice u u1 u2 p r ->
  u p = al + be * p + ga * (p * p) ->
  u q = al + be * q + ga * (q * q) ->
  u r = al + be * r + ga * (r * r) ->
  exists c, p < c < r /\ u2 c = 2 * ga.
Proof.
  intros u u1 u2 p q r al be ga Hpq Hqr D Ep Eq Er.
  set (g := fun t => u t - (al + be * t + ga * (t * t))).
  set (g1 := fun t => u1 t - (be + 2 * ga * t)).
  assert (D1 : forall t, p <= t <= r -> derivable_pt_lim g t (g1 t)).
  { intros t Ht. unfold g, g1. apply derivable_pt_lim_minus; [apply (D t Ht)|].
    apply dlim_val with (0 + be * 1 + ga * (1 * t + t * 1)); [|ring].
    apply (derivable_pt_lim_plus (fun t => al + be * t) (fun t => ga * (t * t))).
    - apply (derivable_pt_lim_plus (fun _ => al) (fun t => be * t)); [apply derivable_pt_lim_const|].
      apply (derivable_pt_lim_scal (fun x => x)), derivable_pt_lim_id.
    - apply (derivable_pt_lim_scal (fun x => x * x)).
      apply (derivable_pt_lim_mult (fun x => x) (fun x => x)); apply derivable_pt_lim_id. }
  assert (D2 : forall t, p <= t <= r -> derivable_pt_lim g1 t (u2 t - 2 * ga)).
  { intros t Ht. unfold g1. apply derivable_pt_lim_minus; [apply (D t Ht)|].
    apply dlim_val with (0 + (2 * ga) * 1); [|ring].
    apply (derivable_pt_lim_plus (fun _ => be) (fun t => 2 * ga * t)); [apply derivable_pt_lim_const|].
    apply (derivable_pt_lim_scal (fun x => x)), derivable_pt_lim_id. }
  destruct (rolle g g1 p q Hpq) as [c1 [C1 Z1]].
  { intros t Ht. apply D1. lra. } { unfold g. lra. }
  destruct (rolle g g1 q r Hqr) as [c2 [C2 Z2]].
  { intros t Ht. apply D1. lra. } { unfold g. lra. }
  destruct (rolle g1 (fun t => u2 t - 2 * ga) c1 c2) as [c [C Z]]; [lra| |lra|].
  { intros t Ht. apply D2. lra. }
  exists c. split; lra.
Qed.

(* The line through (a, u a) and (b, u b) *)
Definition chord (u : R -> R) (a b x : R) : R :=
  ((x - a) * u b + (b - x) * u a) / (b - a).

Lemma chord_quadratic : forall u a b x, a < b -> x <> a -> x <> b ->
  let ga := (u x - chord u a b x) / ((x - a) * (x - b)) in
  exists al be,
    u a = al + be * a + ga * (a * a) /\ u b = al + be * b + ga * (b * b) /\
    u x = al + be * x + ga * (x * x).
Proof.
  intros u a b x H Ha Hb ga.
  exists ((b * u a - a * u b) / (b - a) + ga * (a * b)), ((u b - u a) / (b - a) - ga * (a + b)).
  split; [|split].
  - field. lra.
  - field. lra.
  - unfold ga, chord. field. repeat split; lra.
Qed.

(* The error of the chord, inside and outside the interval *)
Lemma chord_error : forall u u1 u2 a b x M lo hi, a < b ->
  lo <= a -> b <= hi -> lo <= x <= hi -> twice u u1 u2 lo hi ->
  (forall t, lo <= t <= hi -> Rabs (u2 t) <= M) ->
  Rabs (u x - chord u a b x) <= M / 2 * Rabs ((x - a) * (x - b)).
Proof.
  intros u u1 u2 a b x M lo hi H Hlo Hhi Hx D B.
  assert (Z : forall y, u y = chord u a b y ->
            Rabs (u y - chord u a b y) <= M / 2 * Rabs ((y - a) * (y - b))).
  { intros y E. rewrite E, Rminus_diag_eq by reflexivity. rewrite Rabs_R0.
    assert (0 <= M) by (apply Rle_trans with (Rabs (u2 a)); [apply Rabs_pos|apply B; lra]).
    pose proof (Rabs_pos ((y - a) * (y - b))). nra. }
  destruct (Req_dec x a) as [->|Ha]; [apply Z; unfold chord; field; lra|].
  destruct (Req_dec x b) as [->|Hb]; [apply Z; unfold chord; field; lra|].
  clear Z. set (ga := (u x - chord u a b x) / ((x - a) * (x - b))).
  destruct (chord_quadratic u a b x H Ha Hb) as [al [be [Ea [Eb Ex]]]]. fold ga in Ea, Eb, Ex.
  assert (N : (x - a) * (x - b) <> 0) by (apply Rmult_integral_contrapositive; split; lra).
  assert (G : exists c, lo <= c <= hi /\ u2 c = 2 * ga).
  { assert (S : forall p r, lo <= p -> r <= hi -> twice u u1 u2 p r).
    { intros p r Hp Hr t Ht. apply D. lra. }
    destruct (Rlt_dec x a) as [La|La]; [|destruct (Rlt_dec x b) as [Lb|Lb]].
    - destruct (three_zeros u u1 u2 x a b al be ga) as [c [C1 C2]]; auto; try (apply S; lra).
      exists c. split; [lra|exact C2].
    - destruct (three_zeros u u1 u2 a x b al be ga) as [c [C1 C2]]; auto; try lra; try (apply S; lra).
      exists c. split; [lra|exact C2].
    - destruct (three_zeros u u1 u2 a b x al be ga) as [c [C1 C2]]; auto; try lra; try (apply S; lra).
      exists c. split; [lra|exact C2]. }
  destruct G as [c [C1 C2]].
  assert (E : u x - chord u a b x = ga * ((x - a) * (x - b))) by (unfold ga; field; split; lra).
  rewrite E, Rabs_mult. apply Rmult_le_compat_r; [apply Rabs_pos|].
  specialize (B c C1). rewrite C2, Rabs_mult, (Rabs_right 2) in B by lra. lra.
Qed.

Lemma chord_inside : forall u u1 u2 a b x M, a < b -> a <= x <= b -> twice u u1 u2 a b ->
  (forall t, a <= t <= b -> Rabs (u2 t) <= M) ->
  Rabs (u x - chord u a b x) <= M * (b - a) ^ 2 / 8.
Proof.
  intros u u1 u2 a b x M H Hx D B.
  pose proof (chord_error u u1 u2 a b x M a b H ltac:(lra) ltac:(lra) Hx D B) as E.
  assert (P : 0 <= M) by (apply Rle_trans with (Rabs (u2 a)); [apply Rabs_pos|apply B; lra]).
  assert (Q : Rabs ((x - a) * (x - b)) <= (b - a) ^ 2 / 4).
  { rewrite Rabs_left1 by nra. pose proof (Rle_0_sqr (2 * x - a - b)). unfold Rsqr in *. nra. }
  nra.
Qed.

(* The occupation 1/(exp u + eta) of u, in the fermionic case, is Lipschitz *)
Lemma fermi_lipschitz : forall u v, Rabs (1 / (exp u + 1) - 1 / (exp v + 1)) <= Rabs (u - v) / 4.
Proof.
  assert (W : forall u v, u < v -> Rabs (1 / (exp u + 1) - 1 / (exp v + 1)) <= Rabs (u - v) / 4).
  { intros u v H.
    destruct (MVT_cor2 (fun t => 1 / (exp t + 1)) (fun t => - exp t / (exp t + 1) ^ 2) u v H)
      as [c [E C]].
    - intros t _. pose proof (exp_pos t).
      replace (- exp t / (exp t + 1) ^ 2)
        with ((0 * (exp t + 1) - (exp t + 0) * 1) / Rsqr (exp t + 1)) by (unfold Rsqr; field; lra).
      apply (derivable_pt_lim_div (fun _ => 1) (fun t => exp t + 1)).
      + apply derivable_pt_lim_const.
      + apply (derivable_pt_lim_plus exp (fun _ => 1)); [apply derivable_pt_lim_exp|apply derivable_pt_lim_const].
      + lra.
    - replace (1 / (exp u + 1) - 1 / (exp v + 1)) with (- (- exp c / (exp c + 1) ^ 2 * (v - u))) by lra.
      rewrite Rabs_Ropp, Rabs_mult. rewrite (Rabs_right (v - u)) by lra.
      rewrite (Rabs_left (u - v)) by lra.
      assert (Q : Rabs (- exp c / (exp c + 1) ^ 2) <= 1 / 4).
      { pose proof (exp_pos c). replace (- exp c / (exp c + 1) ^ 2) with (- (exp c / (exp c + 1) ^ 2)) by (field; lra).
        rewrite Rabs_Ropp, Rabs_right.
        - apply Rmult_le_reg_r with ((exp c + 1) ^ 2); [nra|].
          replace (exp c / (exp c + 1) ^ 2 * (exp c + 1) ^ 2) with (exp c) by (field; lra).
          pose proof (Rle_0_sqr (exp c - 1)). unfold Rsqr in *. nra.
        - apply Rle_ge. apply Rmult_le_pos; [lra|]. left. apply Rinv_0_lt_compat. nra. }
      nra. }
  intros u v. destruct (Rtotal_order u v) as [H|[->|H]].
  - now apply W.
  - rewrite !Rminus_diag_eq by reflexivity. rewrite Rabs_R0. lra.
  - rewrite Rabs_minus_sym, (Rabs_minus_sym u v). now apply W.
Qed.

Lemma energy_lipschitz : forall m p q, 0 <= p -> p <= q -> energy q m - energy p m <= q - p.
Proof.
  intros m p q Hp Hq. unfold energy.
  assert (A : sqrt (q * q + m * m) <= sqrt (p * p + m * m) + (q - p)).
  { apply Rsqr_incr_0_var.
    - rewrite Rsqr_sqrt by nra. unfold Rsqr.
      pose proof (sqrt_sqrt (p * p + m * m) ltac:(nra)) as S.
      assert (P : p <= sqrt (p * p + m * m)).
      { rewrite <- (sqrt_square p) at 1 by exact Hp. apply sqrt_le_1_alt. nra. }
      nra.
    - pose proof (sqrt_pos (p * p + m * m)). lra. }
  lra.
Qed.

(* The occupation of the interpolated cell *)
Lemma cell_chord : forall u E_p E_lo E_hi f_lo f_hi eta,
  E_lo < E_hi ->
  exp (u E_lo) + eta > 0 -> exp (u E_hi) + eta > 0 ->
  f_lo = 1 / (exp (u E_lo) + eta) -> f_hi = 1 / (exp (u E_hi) + eta) ->
  interp_cell E_p E_lo E_hi f_lo f_hi eta = 1 / (exp (chord u E_lo E_hi E_p) + eta).
Proof.
  intros u E_p E_lo E_hi f_lo f_hi eta H Pl Ph -> ->. unfold interp_cell.
  assert (NZ : forall w, w > 0 -> 1 / w <> 0).
  { intros w Hw E. assert (0 < 1 / w) by (apply Rdiv_lt_0_compat; lra). lra. }
  destruct (Req_EM_T _ 0) as [E|_]; [now apply NZ in E|].
  destruct (Req_EM_T _ 0) as [E|_]; [now apply NZ in E|]. cbn zeta.
  replace (1 / (1 / (exp (u E_hi) + eta)) - eta) with (exp (u E_hi)) by (field; lra).
  replace (1 / (1 / (exp (u E_lo) + eta)) - eta) with (exp (u E_lo)) by (field; lra).
  destruct (Rlt_dec 0 (exp (u E_hi))) as [_|N]; [|pose proof (exp_pos (u E_hi)); lra].
  destruct (Rlt_dec 0 (exp (u E_lo))) as [_|N]; [|pose proof (exp_pos (u E_lo)); lra].
  rewrite !ln_exp. reflexivity.
Qed.
