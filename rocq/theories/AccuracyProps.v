(* C173: accuracy of the table look-ups. *)
From Coq Require Import Reals Lra Lia List Psatz.
From Verif Require Import Base GridsModel GridsProofs GridsProps AccuracyProofs.
Import ListNotations.
Open Scope R_scope.
Local Notation length := List.length.

(* Any distribution can be written as 1/(exp(u(E)) + eta); for an equilibrium one u is
   linear in the energy.  If the second derivative of u is at most M between two
   neighbouring nodes, the interpolated distribution is that of a function within
   M h^2/8 of u, where h is the distance of the nodes. *)
Theorem C173_second_order : forall grid dist p m eta T i (u u1 u2 : R -> R) M,
  incr grid -> 0 <= rnth grid 0 -> (S i < length grid)%nat -> rnth grid i < p < rnth grid (S i) ->
  let E := fun y => energy y m in
  let lo := E (rnth grid i) in let hi := E (rnth grid (S i)) in
  twice u u1 u2 lo hi -> (forall t, lo <= t <= hi -> Rabs (u2 t) <= M) ->
  exp (u lo) + eta > 0 -> exp (u hi) + eta > 0 ->
  rnth dist i = 1 / (exp (u lo) + eta) -> rnth dist (S i) = 1 / (exp (u hi) + eta) ->
  exists w, distribution_interpolation grid dist p m eta T false = Ok (1 / (exp w + eta)) /\
    Rabs (u (E p) - w) <= M * (hi - lo) ^ 2 / 8 /\
    Rabs (u (E p) - w) <= M * (rnth grid (S i) - rnth grid i) ^ 2 / 8.
Proof.
  intros grid dist p m eta T i u u1 u2 M Hg H0 Hi Hp E lo hi D B Pl Ph Fl Fh.
  assert (Gi : 0 <= rnth grid i) by (pose proof (incr_le grid 0 i Hg ltac:(lia) ltac:(lia)); lra).
  assert (L1 : lo < E p) by (apply energy_incr; lra).
  assert (L2 : E p < hi) by (apply energy_incr; lra).
  exists (chord u lo hi (E p)). split; [|].
  - rewrite (interp_between grid dist p m eta T i Hg Hi Hp). f_equal.
    apply (cell_chord u); auto. fold lo hi. lra.
  - pose proof (chord_inside u u1 u2 lo hi (E p) M ltac:(lra) ltac:(lra) D B) as C.
    split; [exact C|]. eapply Rle_trans; [exact C|].
    assert (P : 0 <= M) by (apply Rle_trans with (Rabs (u2 lo)); [apply Rabs_pos|apply B; lra]).
    pose proof (energy_lipschitz m (rnth grid i) (rnth grid (S i)) Gi ltac:(lra)) as LL.
    change (hi - lo <= rnth grid (S i) - rnth grid i) in LL.
    assert ((hi - lo) ^ 2 <= (rnth grid (S i) - rnth grid i) ^ 2) by (apply pow_incr; lra).
    nra.
Qed.
Print Assumptions C173_second_order.

(* For fermions the distribution itself is within M h^2/32. *)
Theorem C173_fermions : forall grid dist p m T i (u u1 u2 : R -> R) M,
  incr grid -> 0 <= rnth grid 0 -> (S i < length grid)%nat -> rnth grid i < p < rnth grid (S i) ->
  let E := fun y => energy y m in
  let lo := E (rnth grid i) in let hi := E (rnth grid (S i)) in
  twice u u1 u2 lo hi -> (forall t, lo <= t <= hi -> Rabs (u2 t) <= M) ->
  rnth dist i = 1 / (exp (u lo) + 1) -> rnth dist (S i) = 1 / (exp (u hi) + 1) ->
  exists v, distribution_interpolation grid dist p m 1 T false = Ok v /\
    Rabs (v - 1 / (exp (u (E p)) + 1)) <= M * (rnth grid (S i) - rnth grid i) ^ 2 / 32.
Proof.
  intros grid dist p m T i u u1 u2 M Hg H0 Hi Hp E lo hi D B Fl Fh.
  destruct (C173_second_order grid dist p m 1 T i u u1 u2 M Hg H0 Hi Hp D B) as [w [W1 [_ W2]]]; auto.
  { pose proof (exp_pos (u (energy (rnth grid i) m))). lra. }
  { pose proof (exp_pos (u (energy (rnth grid (S i)) m))). lra. }
  exists (1 / (exp w + 1)). split; [exact W1|].
  eapply Rle_trans; [apply fermi_lipschitz|]. rewrite Rabs_minus_sym. unfold E. lra.
Qed.
Print Assumptions C173_fermions.

(* linear_interpolation continues the line of the next cell (C42): its error is at most
   M/2 times the product of the distances to the next two nodes ... *)
Theorem C173_linear : forall f g i x (u u1 u2 : R -> R) M, incr g -> (S (S i) < length g)%nat ->
  rnth g i < x < rnth g (S i) ->
  twice u u1 u2 (rnth g i) (rnth g (S (S i))) ->
  (forall t, rnth g i <= t <= rnth g (S (S i)) -> Rabs (u2 t) <= M) ->
  rnth f (S i) = u (rnth g (S i)) -> rnth f (S (S i)) = u (rnth g (S (S i))) ->
  Rabs (u x - linear_interpolation f g x) <= M / 2 * ((rnth g (S i) - x) * (rnth g (S (S i)) - x)).
Proof.
  intros f g i x u u1 u2 M Hg Hi Hx D B F1 F2.
  pose proof (Hg (S i) (S (S i)) ltac:(lia) Hi) as G.
  rewrite (lin_cell f g i x Hg Hi Hx), F1, F2.
  pose proof (chord_error u u1 u2 (rnth g (S i)) (rnth g (S (S i))) x M
                (rnth g i) (rnth g (S (S i))) G ltac:(lra) ltac:(lra) ltac:(lra) D B) as C.
  unfold chord in C. rewrite (Rabs_right ((x - rnth g (S i)) * (x - rnth g (S (S i))))) in C by nra.
  replace (u (rnth g (S i)) * (rnth g (S (S i)) - x) + u (rnth g (S (S i))) * (x - rnth g (S i)))
    with ((x - rnth g (S i)) * u (rnth g (S (S i))) + (rnth g (S (S i)) - x) * u (rnth g (S i))) by ring.
  replace ((rnth g (S i) - x) * (rnth g (S (S i)) - x)) with ((x - rnth g (S i)) * (x - rnth g (S (S i)))) by ring.
  exact C.
Qed.
Print Assumptions C173_linear.

(* ... so the usual bound M h^2/8 of linear interpolation is false: near the left node
   the error can be eight times as large. *)
Theorem C173_linear_refuted :
  exists f g x, incr g /\ length f = length g /\ rnth g 0 < x < rnth g 1 /\
    (forall i, (i < length g)%nat -> rnth f i = rnth g i ^ 2) /\
    rnth g 1 - rnth g 0 = 1 /\ rnth g 2 - rnth g 1 = 1 /\
    7 * (2 * 1 ^ 2 / 8) < Rabs (x ^ 2 - linear_interpolation f g x).
Proof.
  exists [0; 1; 4], [0; 1; 2], (1/100).
  assert (HI : incr [0; 1; 2]).
  { intros i j Hij Hj. cbn in Hj. unfold rnth. destruct j as [|[|[|j]]]; try lia; destruct i as [|[|i]]; try lia; cbn; lra. }
  split; [exact HI|]. split; [reflexivity|]. split; [unfold rnth; cbn; lra|]. split.
  { intros i Hi. cbn in Hi. unfold rnth. destruct i as [|[|[|i]]]; try lia; cbn; lra. }
  split; [unfold rnth; cbn; lra|]. split; [unfold rnth; cbn; lra|].
  rewrite (lin_cell [0;1;4] [0;1;2] 0) by (auto; unfold rnth; cbn; (lia || lra)).
  unfold rnth. cbn. unfold Rabs. destruct (Rcase_abs _); lra.
Qed.
Print Assumptions C173_linear_refuted.

(* A distribution distorted by a chemical-potential-like term: u(E) = E + E^2/10 *)
Definition u_ex (t : R) : R := t + t * t / 10.
Example C173_example :
  incr [0; 1; 2] /\ twice u_ex (fun t => 1 + t / 5) (fun _ => 1/5) (energy 1 0) (energy 2 0) /\
  (forall t, energy 1 0 <= t <= energy 2 0 -> Rabs ((fun _ => 1/5) t) <= 1/5) /\
  exists v, distribution_interpolation [0; 1; 2] (map (fun y => 1 / (exp (u_ex (energy y 0)) + 1)) [0; 1; 2])
              (3/2) 0 1 1 false = Ok v /\
            Rabs (v - 1 / (exp (u_ex (energy (3/2) 0)) + 1)) <= 1/5 * (2 - 1) ^ 2 / 32.
Proof.
  assert (HI : incr [0; 1; 2]).
  { intros i j Hij Hj. cbn in Hj. unfold rnth. destruct j as [|[|[|j]]]; try lia; destruct i as [|[|i]]; try lia; cbn; lra. }
  assert (D : forall a b, twice u_ex (fun t => 1 + t / 5) (fun _ => 1/5) a b).
  { intros a b t _. split.
    - apply dlim_val with (1 + (1 * t + t * 1) * / 10); [|field].
      apply (derivable_pt_lim_plus (fun t => t) (fun t => t * t / 10)); [apply derivable_pt_lim_id|].
      apply dlim_val with ((1 * t + t * 1) * / 10 + t * t * 0); [|ring].
      apply (derivable_pt_lim_mult (fun t => t * t) (fun _ => / 10)).
      + apply (derivable_pt_lim_mult (fun t => t) (fun t => t)); apply derivable_pt_lim_id.
      + apply derivable_pt_lim_const.
    - apply dlim_val with (0 + (1 * / 5 + t * 0)); [|field].
      apply (derivable_pt_lim_plus (fun _ => 1) (fun t => t * / 5)); [apply derivable_pt_lim_const|].
      apply (derivable_pt_lim_mult (fun t => t) (fun _ => / 5));
        [apply derivable_pt_lim_id|apply derivable_pt_lim_const]. }
  assert (B : Rabs (1/5) <= 1/5) by (rewrite Rabs_right; lra).
  split; [exact HI|]. split; [apply D|]. split; [intros; exact B|].
  apply (C173_fermions [0; 1; 2] _ (3/2) 0 1 1 u_ex (fun t => 1 + t / 5) (fun _ => 1/5) (1/5) HI);
    try (unfold rnth; cbn; (lia || lra)); auto.
Qed.
