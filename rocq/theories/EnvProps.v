(* C10-C12: environment options. *)
From Verif Require Import Base EnvModel EnvProofs.

(* C10 is false: for every option whose default is True, EVERY non-empty value
   of the environment variable leaves it enabled... *)
Theorem C10_boolean_option_off_refuted :
  forall F f_zero fos ios defaults environ name s,
  assoc F defaults name = Some (VBool true) -> environ name = Some s -> s <> ""%string ->
  env_get F f_zero fos ios defaults environ name = Ok (VBool true).
Proof.
  intros F f_zero fos ios defaults environ name s H1 H2 H3.
  rewrite (bool_option_stuck F f_zero fos ios _ _ _ _ H1 H2).
  now rewrite (proj2 (String.eqb_neq _ _) H3).
Qed.
Print Assumptions C10_boolean_option_off_refuted.
(* ...and only the empty string disables it *)
Theorem C10_only_empty_string_disables :
  forall F f_zero fos ios defaults environ name s,
  assoc F defaults name = Some (VBool true) -> environ name = Some s ->
  (env_get F f_zero fos ios defaults environ name = Ok (VBool false) <-> s = ""%string).
Proof.
  intros F f_zero fos ios defaults environ name s H1 H2.
  rewrite (bool_option_stuck F f_zero fos ios _ _ _ _ H1 H2).
  destruct (String.eqb_spec s "") as [->|H]; cbn; split; try congruence.
Qed.
Print Assumptions C10_only_empty_string_disables.
Example C10_ex : forall F fr fg,
  assoc F (repo_defaults F fr fg) "LOGARITHMIC_TIMESTEP" = Some (VBool true) /\
  (fun n => if String.eqb n "LOGARITHMIC_TIMESTEP" then Some "False"%string else None)
    "LOGARITHMIC_TIMESTEP"%string = Some "False"%string /\ "False"%string <> ""%string.
Proof. intros. repeat split. discriminate. Qed.

(* C11 *)
Theorem C11_typed_options :
  forall F f_zero fos ios defaults environ name d,
  assoc F defaults name = Some d -> truthy F f_zero d = true ->
  (exists v, env_get F f_zero fos ios defaults environ name = Ok v /\ same_type F d v /\
             (environ name = None -> v = d)) \/
  (env_get F f_zero fos ios defaults environ name = Raise ValueError /\ exists s, environ name = Some s).
Proof. exact get_typed. Qed.
Print Assumptions C11_typed_options.
Theorem C11_untyped_options :
  forall F f_zero fos ios defaults environ name,
  truthy F f_zero (orNone F (assoc F defaults name)) = false ->
  env_get F f_zero fos ios defaults environ name =
    Ok (match environ name with Some s => VStr s | None => orNone F (assoc F defaults name) end).
Proof. exact get_untyped. Qed.
Print Assumptions C11_untyped_options.
(* an option that is off by default is switched ON by every non-empty value,
   including "0" and "False" *)
Theorem C11_false_default_any_string_enables :
  forall F f_zero fos ios defaults environ name s,
  assoc F defaults name = Some (VBool false) -> environ name = Some s -> s <> ""%string ->
  exists v, env_get F f_zero fos ios defaults environ name = Ok v /\ truthy F f_zero v = true.
Proof.
  intros F f_zero fos ios defaults environ name s H1 H2 H3.
  exists (VStr s). rewrite get_untyped by now rewrite H1. rewrite H2. split; [reflexivity|].
  cbn. now rewrite (proj2 (String.eqb_neq _ _) H3).
Qed.
Print Assumptions C11_false_default_any_string_enables.
Example C11_ex : forall F f_zero fr fg,
  assoc F (repo_defaults F fr fg) "MOMENTUM_SAMPLES" = Some (VInt 401) /\
  truthy F f_zero (VInt 401) = true /\
  assoc F (repo_defaults F fr fg) "ADAMS_MOULTON_DISTRIBUTION_CORRECTION" = Some (VBool false).
Proof. intros. repeat split. Qed.

(* C12 *)
Theorem C12_getboolenv_truth_table :
  forall F environ var default,
  getboolenv F environ var default = false <->
  (exists s, environ var = Some s /\ In s ["false"; "f"; "0"; "-1"]%string) \/
  (environ var = None /\
     (default = VNone \/ default = VBool false \/
      exists s, default = VStr s /\ In s ["false"; "f"; "0"; "-1"]%string)).
Proof. exact getboolenv_false. Qed.
Print Assumptions C12_getboolenv_truth_table.
