(* C14, C96: further statements, added after mutation tests. *)
From Verif Require Import Base ReactionsModel.

(* the default kind is the full integral (value 0), members are kept as given,
   everything else is rejected with ValueError *)
Theorem C96_accepted_value : kind_accepted KNone = Ok 0 /\
  (forall n, kind_accepted (KEnum n) = if n <? 8 then Ok n else Raise ValueError) /\
  kind_accepted KOther = Raise ValueError.
Proof.
  split; [reflexivity|]. split; [|reflexivity]. intros n.
  do 8 (destruct n as [|n]; [reflexivity|]). reflexivity.
Qed.
Print Assumptions C96_accepted_value.

(* looking at the first particle only fails on a reaction without participants *)
Theorem C14_empty_reaction : forall names sums, interaction_filter names [[[]]] true sums = Raise IndexError /\
  interaction_filter names [[[]]] false sums = Ok [if existsb (Z.eqb 0) sums then [] else [[]]].
Proof. intros names sums. split; [reflexivity|]. cbn. unfold keep_all. cbn. destruct (existsb (Z.eqb 0) sums); reflexivity. Qed.
Print Assumptions C14_empty_reaction.
