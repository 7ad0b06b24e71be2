From Verif Require Import Base EnvModel.

Section Env.
Variable F : Type.
Variable f_zero : F -> bool.
Variable fos : string -> option F.
Variable ios : string -> option Z.
Notation get := (env_get F f_zero fos ios).

Lemma bool_option_stuck defaults environ name s :
  assoc F defaults name = Some (VBool true) -> environ name = Some s ->
  get defaults environ name = Ok (VBool (negb (String.eqb s ""))).
Proof. intros H1 H2. unfold env_get. rewrite H1, H2. reflexivity. Qed.

(* same Python type *)
Definition same_type (a b : pyval F) : Prop :=
  match a, b with
  | VBool _, VBool _ | VInt _, VInt _ | VFloat _, VFloat _ | VStr _, VStr _ | VNone, VNone => True
  | _, _ => False
  end.

Lemma get_typed defaults environ name d :
  assoc F defaults name = Some d -> truthy F f_zero d = true ->
  (exists v, get defaults environ name = Ok v /\ same_type d v /\ (environ name = None -> v = d)) \/
  (get defaults environ name = Raise ValueError /\ exists s, environ name = Some s).
Proof.
  intros H1 H2. unfold env_get. rewrite H1. cbn [orNone]. rewrite H2.
  destruct (environ name) as [s|] eqn:E.
  - destruct d as [|b|z|f|t]; cbn [coerce]; try discriminate.
    + left. eexists. split; [reflexivity|]. split; [exact I|discriminate].
    + destruct (ios s) as [z'|]; [left; eexists; split; [reflexivity|]; split; [exact I|discriminate]|right; eauto].
    + destruct (fos s) as [z'|]; [left; eexists; split; [reflexivity|]; split; [exact I|discriminate]|right; eauto].
    + left. eexists. split; [reflexivity|]. split; [exact I|discriminate].
  - left. exists d. destruct d as [|b|z|f|t]; cbn [coerce] in *; try discriminate; cbn in *; auto.
Qed.

Lemma get_untyped defaults environ name :
  truthy F f_zero (orNone F (assoc F defaults name)) = false ->
  get defaults environ name =
    Ok (match environ name with Some s => VStr s | None => orNone F (assoc F defaults name) end).
Proof. intros H. unfold env_get. now rewrite H. Qed.

Lemma getboolenv_false environ var default :
  getboolenv F environ var default = false <->
  (exists s, environ var = Some s /\ In s ["false"; "f"; "0"; "-1"]%string) \/
  (environ var = None /\
     (default = VNone \/ default = VBool false \/
      exists s, default = VStr s /\ In s ["false"; "f"; "0"; "-1"]%string)).
Proof.
  assert (HS : forall s, existsb (String.eqb s) ["false"; "f"; "0"; "-1"]%string = true <->
                         In s ["false"; "f"; "0"; "-1"]%string).
  { intros s. rewrite existsb_exists. split.
    - intros (x & Hx & E). apply String.eqb_eq in E. now subst.
    - intros H. exists s. split; [exact H|apply String.eqb_refl]. }
  unfold getboolenv. destruct (environ var) as [s|].
  - cbn [negb andb]. rewrite negb_false_iff, HS. split.
    + intros H. left. eauto.
    + intros [(s' & E & H)|(E & _)]; [injection E as ->; exact H|discriminate].
  - destruct default as [|[|]|z|f|s]; cbn [negb andb]; try rewrite negb_false_iff, HS; split;
      intros H; try discriminate; auto;
      try (destruct H as [(s' & E & _)|(_ & [E|[E|(s' & E & H)]])]; try discriminate).
    + right. split; [reflexivity|]. right. right. eauto.
    + injection E as ->. exact H.
Qed.
End Env.
