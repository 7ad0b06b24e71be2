(* The documented defaults (C11). Specification: the table below, written from
   the comments of environment.py. *)
From Verif Require Import Base EnvModel EnvProofs EnvProps.

Theorem C11_truth : forall F f_zero v, truthy F f_zero v = false <->
  v = VNone \/ v = VBool false \/ v = VInt 0 \/ v = VStr "" \/ exists f, v = VFloat f /\ f_zero f = true.
Proof.
  intros F f_zero v. destruct v as [|b|z|f|s]; cbn [truthy].
  - tauto.
  - destruct b; (split; [intros E; first [discriminate E|tauto]|intros [H|[H|[H|[H|(f & H & _)]]]]; first [discriminate H|reflexivity]]).
  - destruct (Z.eqb_spec z 0) as [->|N]; cbn; (split; [intros E; first [discriminate E|tauto]|]); [reflexivity|].
    intros [H|[H|[H|[H|(f & H & _)]]]]; try discriminate. injection H as ->. contradiction.
  - destruct (f_zero f) eqn:E; cbn; split; intros H; [do 4 right; eauto|reflexivity|discriminate|].
    destruct H as [H|[H|[H|[H|(g & H & Hg)]]]]; try discriminate. injection H as <-. congruence.
  - destruct (String.eqb_spec s "") as [->|N]; cbn; (split; [intros E; first [discriminate E|tauto]|]); [reflexivity|].
    intros [H|[H|[H|[H|(f & H & _)]]]]; try discriminate. injection H as ->. contradiction.
Qed.
Print Assumptions C11_truth.
Definition flags_on : list string :=
  ["SPLIT_COLLISION_INTEGRAL"; "FIXED_ORDER_1D_QUADRATURE"; "LOGARITHMIC_TIMESTEP"; "ADAMS_BASHFORTH_TEMPERATURE_CORRECTION";
   "NORMAL_HIERARCHY_NEUTRINOS"; "SIMPSONS_NONEQ_PARTICLES"; "LAGUERRE_GAUSS_FOR_MASSIVE_EQUILIBRIUM_PARTICLES"]%string.
Definition flags_off : list string := ["ADAMS_MOULTON_DISTRIBUTION_CORRECTION"; "SIMPSONS_INTEGRATION"]%string.
Definition numbers : list (string * Z) :=
  [("GAUSS_LEGENDRE_ORDER", 100); ("GAUSS_LAGUERRE_ORDER", 100); ("MOMENTUM_SAMPLES", 401); ("MAX_MOMENTUM_MEV", 100); ("MAX_SCALE_FACTOR", 10)]%Z%string.
(* with no variables set, every option has its documented value; other names
   are None *)
Theorem C11_documented_defaults : forall F f_zero fos ios resolution regime environ,
  f_zero resolution = false -> f_zero regime = false -> (forall n, environ n = None) ->
  let get := env_get F f_zero fos ios (repo_defaults F resolution regime) environ in
  (forall n, In n flags_on -> get n = Ok (VBool true)) /\ (forall n, In n flags_off -> get n = Ok (VBool false)) /\
  (forall n z, In (n, z) numbers -> get n = Ok (VInt z)) /\
  get "FOUR_PARTICLE_GRID_RESOLUTION"%string = Ok (VFloat resolution) /\ get "REGIME_SWITCHING_FACTOR"%string = Ok (VFloat regime) /\
  (forall n, ~ In n (flags_on ++ flags_off ++ map fst numbers ++ ["FOUR_PARTICLE_GRID_RESOLUTION"; "REGIME_SWITCHING_FACTOR"]%string) -> get n = Ok VNone).
Proof.
  intros F f_zero fos ios rs rg environ H1 H2 HE get. unfold get, env_get. repeat split.
  - intros n Hn. rewrite HE. cbn in Hn. repeat (destruct Hn as [<-|Hn]; [reflexivity|]). destruct Hn.
  - intros n Hn. rewrite HE. cbn in Hn. repeat (destruct Hn as [<-|Hn]; [reflexivity|]). destruct Hn.
  - intros n z Hn. rewrite HE. cbn [numbers In] in Hn. repeat (destruct Hn as [Hn|Hn]; [injection Hn as <- <-; reflexivity|]). destruct Hn.
  - rewrite HE. cbn. rewrite H1. reflexivity.
  - rewrite HE. cbn. rewrite H2. reflexivity.
  - intros n Hn. rewrite HE. assert (E : assoc F (repo_defaults F rs rg) n = None); [|rewrite E; reflexivity].
    cbn [flags_on flags_off numbers map fst app In] in Hn. unfold repo_defaults. cbn [assoc].
    repeat match goal with |- context [String.eqb ?k n] => destruct (String.eqb_spec k n); [exfalso; subst; tauto|] end. reflexivity.
Qed.
Print Assumptions C11_documented_defaults.
(* and a variable that is set: integers and floats are parsed, flags that are on
   by default stay on unless emptied, flags that are off become the string *)
Theorem C11_set_values : forall F f_zero fos ios resolution regime environ s,
  f_zero resolution = false -> f_zero regime = false ->
  let get := env_get F f_zero fos ios (repo_defaults F resolution regime) environ in
  (forall n, In n flags_on -> environ n = Some s -> get n = Ok (VBool (negb (String.eqb s "")))) /\
  (forall n, In n flags_off -> environ n = Some s -> get n = Ok (VStr s)) /\
  (forall n z, In (n, z) numbers -> environ n = Some s -> get n = match ios s with Some v => Ok (VInt v) | None => Raise ValueError end) /\
  (forall n, In n ["FOUR_PARTICLE_GRID_RESOLUTION"; "REGIME_SWITCHING_FACTOR"]%string -> environ n = Some s ->
     get n = match fos s with Some v => Ok (VFloat v) | None => Raise ValueError end).
Proof.
  intros F f_zero fos ios rs rg environ s H1 H2 get. unfold get, env_get. repeat split.
  - intros n Hn HE. rewrite HE. cbn in Hn. repeat (destruct Hn as [<-|Hn]; [reflexivity|]). destruct Hn.
  - intros n Hn HE. rewrite HE. cbn in Hn. repeat (destruct Hn as [<-|Hn]; [reflexivity|]). destruct Hn.
  - intros n z Hn HE. rewrite HE. cbn [numbers In] in Hn. repeat (destruct Hn as [Hn|Hn]; [injection Hn as <- <-; reflexivity|]). destruct Hn.
  - intros n Hn HE. rewrite HE. destruct Hn as [<-|[<-|[]]]; cbn; [rewrite H1|rewrite H2]; reflexivity.
Qed.
Print Assumptions C11_set_values.
Example C11_documented_case : In ("GAUSS_LEGENDRE_ORDER"%string, 100%Z) numbers /\ In "SIMPSONS_INTEGRATION"%string flags_off.
Proof. split; cbn; auto. Qed.
