(* C45, C49: further statements about table look-ups, added after mutation tests. *)
From Coq Require Import Reals Lra.
From Verif Require Import Base GridsModel GridsProofs.
Open Scope R_scope.

Theorem C45_empty_grid : forall x, py_binary_find [] x = Raise IndexError.
Proof. reflexivity. Qed.
Print Assumptions C45_empty_grid.

(* a fermion state filled at one end of a cell makes the whole open cell look
   empty, whatever the other end *)
Theorem C49_one_full_node_refuted : forall grid dist p m T i,
  incr grid -> (S i < length grid)%nat -> rnth grid i < p < rnth grid (S i) ->
  rnth dist i >= 1 \/ rnth dist (S i) >= 1 ->
  distribution_interpolation grid dist p m 1 T false = Ok 0.
Proof.
  intros grid dist p m T i Hg Hi Hp H. rewrite (interp_between grid dist p m 1 T i) by auto. f_equal. unfold interp_cell.
  assert (X : forall y, y >= 1 -> ~ 0 < 1 / y - 1).
  { intros y Hy Z. assert (1 / y * y <= 1 * 1 * y).
    { unfold Rdiv. rewrite Rmult_assoc, Rinv_l by lra. lra. }
    assert (0 < (1 / y - 1) * y) by (apply Rmult_lt_0_compat; lra).
    assert (1 / y * y = 1) by (unfold Rdiv; rewrite Rmult_assoc, Rinv_l by lra; lra). lra. }
  destruct (Req_EM_T _ 0); [reflexivity|]. destruct (Req_EM_T _ 0); [reflexivity|].
  destruct (Rlt_dec 0 (1 / rnth dist (S i) - 1)) as [A|A]; [|reflexivity].
  destruct (Rlt_dec 0 (1 / rnth dist i - 1)) as [B|B]; [|reflexivity].
  exfalso. destruct H as [H|H]; [exact (X _ H B)|exact (X _ H A)].
Qed.
Print Assumptions C49_one_full_node_refuted.
Example C49_one_full_node_ex : distribution_interpolation [0; 1; 2] [1; 1/2; 0] (1/2) 0 1 1 false = Ok 0.
Proof.
  apply (C49_one_full_node_refuted _ _ _ _ _ 0%nat).
  - intros i j Hi. cbn in Hi. destruct i as [|[|[|i]]], j as [|[|[|j]]]; unfold rnth; cbn; try lia; lra.
  - cbn; lia.
  - unfold rnth; cbn; lra.
  - left. unfold rnth; cbn; lra.
Qed.
