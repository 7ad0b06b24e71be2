(* Matrix elements: when two are combined into one, default order, orders that
   do not fit the reaction (C72, C73, C74). *)
From Coq Require Import Reals Lra Permutation.
From Verif Require Import Base CrossModel CrossProofs CrossProps.
Open Scope R_scope.

(* ---------- C72 ---------- *)
(* two interaction terms of a four-particle reaction become one exactly when
   they pair the particles the same way, or in the exchanged way and have no
   mass term; otherwise both are kept *)
Lemma neqb_iff a b : neqb a b = true <-> a = b.
Proof.
  revert b. induction a as [|x a IH]; intros [|y b]; cbn [neqb]; split; intros H; try reflexivity; try discriminate.
  - apply andb_prop in H. destruct H as [H1 H2]. apply Nat.eqb_eq in H1. apply IH in H2. congruence.
  - injection H as -> ->. rewrite Nat.eqb_refl. now apply IH.
Qed.
Theorem C72_combined : forall a b c d o' K1 K2 K1' K2',
  ((o' = [a; b; c; d] \/ (o' = [c; d; a; b] /\ K2 = 0 /\ K2' = 0)) -> merge_Ms [M4 [a; b; c; d] K1 K2 0] [M4 o' K1' K2' 0] = Ok [M4 [a; b; c; d] (K1 + K1') (K2 + K2') 0]) /\
  (~ (o' = [a; b; c; d] \/ (o' = [c; d; a; b] /\ K2 = 0 /\ K2' = 0)) -> merge_Ms [M4 [a; b; c; d] K1 K2 0] [M4 o' K1' K2' 0] = Ok [M4 [a; b; c; d] K1 K2 0; M4 o' K1' K2' 0]).
Proof.
  intros a b c d o' K1 K2 K1' K2'.
  assert (G : exists t, stackable (M4 [a; b; c; d] K1 K2 0) (M4 o' K1' K2' 0) = Ok t /\ (t = true <-> (o' = [a; b; c; d] \/ (o' = [c; d; a; b] /\ K2 = 0 /\ K2' = 0)))).
  { eexists. split; [reflexivity|]. cbn [skipn firstn app]. rewrite Bool.orb_true_iff, Bool.andb_true_iff, !neqb_iff.
    destruct (Req_EM_T K2 K2') as [->|N]; [destruct (Req_EM_T K2' 0) as [->|N]|].
    - split; [intros [H|[H _]]|intros [H|[H _]]]; auto.
    - split; [intros [H|[_ H]]; [auto|discriminate]|intros [H|[_ [_ H]]]; [auto|contradiction]].
    - split; [intros [H|[_ H]]; [auto|discriminate]|intros [H|[_ [H H']]]; [auto|congruence]]. }
  destruct G as (t & Et & Ht). unfold merge_Ms. cbn [rfold merge_step reduce K_of]. destruct (Req_EM_T 0 0); [|contradiction]. rewrite Et. cbn [rbind].
  destruct t; split; intros H; try reflexivity; exfalso; [apply H; now apply Ht|]. apply Ht in H. discriminate.
Qed.
Print Assumptions C72_combined.
Example C72_combined_case : [2; 3; 0; 1]%nat <> [0; 1; 2; 3]%nat /\ merge_Ms [M4 [0; 1; 2; 3]%nat 1 0 0] [M4 [2; 3; 0; 1]%nat 1 0 0] = Ok [M4 [0; 1; 2; 3]%nat (1 + 1) (0 + 0) 0].
Proof. split; [discriminate|]. apply C72_combined. auto. Qed.

(* ---------- C73 ---------- *)
(* a constant three-particle element swallows a four-particle one: its
   constant is added and its momentum-dependent terms are lost *)
Theorem C73_mixed_refuted : forall K o K1 K2 K', K <> 0 -> merge_Ms [M3 K] [M4 o K1 K2 K'] = Ok [M3 (K + K')].
Proof. intros K o K1 K2 K' HK. unfold merge_Ms. cbn [rfold merge_step reduce K_of]. destruct (Req_EM_T K 0); [contradiction|]. reflexivity. Qed.
Print Assumptions C73_mixed_refuted.

(* ---------- C74 ---------- *)
Theorem C74_default_order : forall K1 K2 K, new_M4 None K1 K2 K = new_M4 (Some [0; 1; 2; 3]%nat) K1 K2 K.
Proof. reflexivity. Qed.
Print Assumptions C74_default_order.
(* an order naming a particle that the reaction does not have is a KeyError when
   the integral is built, one naming fewer than two an IndexError *)
Theorem C74_foreign_order : forall r o K1 K2 K v, In v o -> (forall it, In it r -> index it <> v) -> apply_order r (M4 o K1 K2 K) = Raise KeyError.
Proof.
  intros r o K1 K2 K v Hv HN. unfold apply_order.
  assert (P : forall j f, f = None -> pos_of v j r f = None).
  { revert HN. clear. induction r as [|it t IH]; intros HN j f Hf; [exact Hf|]. cbn [pos_of]. destruct (Nat.eqb_spec (index it) v) as [E|E]; [exfalso; apply (HN it); [now left|exact E]|]. apply IH; [|exact Hf]. intros x Hx. apply HN. now right. }
  assert (M : map_order r o = Raise KeyError).
  { induction o as [|w o IH]; [destruct Hv|]. cbn [map_order]. destruct Hv as [->|Hv]; [rewrite (P 0%nat None eq_refl); reflexivity|]. destruct (pos_of w 0 r None); [|reflexivity]. rewrite IH by auto. reflexivity. }
  rewrite M. reflexivity.
Qed.
Print Assumptions C74_foreign_order.
Theorem C74_short_order : forall r o K1 K2 K, (length o < 2)%nat -> (forall v, In v o -> exists it, In it r /\ index it = v) -> apply_order r (M4 o K1 K2 K) = Raise IndexError.
Proof.
  intros r o K1 K2 K Ho HI. unfold apply_order.
  assert (S : forall t v j f, f <> None -> pos_of v j t f <> None).
  { clear. induction t as [|it t IH]; intros v j f Hf; [exact Hf|]. cbn [pos_of]. apply IH. destruct (index it =? v)%nat; [discriminate|exact Hf]. }
  assert (P : forall t v j f, (exists it, In it t /\ index it = v) -> pos_of v j t f <> None).
  { induction t as [|x t IH]; intros v j f (it & Hit & E); [destruct Hit|]. cbn [pos_of]. destruct Hit as [->|Hit].
    - rewrite E, Nat.eqb_refl. apply S. discriminate.
    - apply IH. eauto. }
  destruct o as [|v [|w o]]; cbn [length] in Ho; [reflexivity| |lia]. cbn [map_order].
  destruct (pos_of v 0 r None) eqn:E; [reflexivity|]. exfalso. apply (P r v 0%nat None); [|exact E]. apply HI. now left.
Qed.
Print Assumptions C74_short_order.
Example C74_order_case : let s := mkSpecie 0 "N" 1 false in let r := [mkItem (-1) s false 0 false; mkItem 1 s false 1 false] in
  (forall it, In it r -> index it <> 3%nat) /\ (forall v, In v [1%nat] -> exists it, In it r /\ index it = v).
Proof.
  cbn. split; [intros it [<-|[<-|[]]]; cbn; lia|]. intros v [<-|[]]. eexists. split; [right; left; reflexivity|]. reflexivity.
Qed.
