(* C174: running KAWANO. *)
From Verif Require Import Base SystemModel SystemProofs SystemProps RunModel.

(* A program that reads the file named by INPUT and writes what it computes from it
   into the file named by OUTPUT *)
Fixpoint env_get (e : environment) (k : string) : option path :=
  match e with
  | [] => None
  | (j, p) :: r => if String.eqb j k then Some p else env_get r k
  end.
Definition honest (compute : string -> string) (prog : program) : Prop :=
  forall cmd e stdin f i o text,
    env_get e "INPUT" = Some i -> env_get e "OUTPUT" = Some o -> f i = Some (File text) ->
    prog cmd e stdin f = inl (put f o (File (compute text))).

(* What run returns is what such a program computes from the table in the folder. *)
Theorem C174_result : forall environ prog compute f folder input output text,
  honest compute prog -> f (folder ++ [input]) = Some (File text) ->
  kawano_run environ prog f folder input output = inl (compute text).
Proof.
  intros environ prog compute f folder input output text H F. unfold kawano_run.
  rewrite (H _ _ _ f (folder ++ [input]) (folder ++ [output]) text) by (reflexivity || exact F).
  unfold read_file, put. now rewrite path_eqb_refl.
Qed.
Print Assumptions C174_result.

(* A program that leaves no output makes run raise, as does one that cannot be started. *)
Theorem C174_failures : forall environ prog f folder input output,
  (forall e, (forall c v s g, prog c v s g = inr e) ->
     kawano_run environ prog f folder input output = inr e) /\
  ((forall c v s g, exists g', prog c v s g = inl g' /\ g' (folder ++ [output]) = None) ->
     kawano_run environ prog f folder input output = inr FileNotFound).
Proof.
  intros environ prog f folder input output. unfold kawano_run. split.
  - intros e H. now rewrite H.
  - intro H. destruct (H (command environ)
      [("INPUT"%string, folder ++ [input]); ("OUTPUT"%string, folder ++ [output])] menu f) as [g' [-> G]].
    unfold read_file. now rewrite G.
Qed.
Print Assumptions C174_failures.

(* "The result is that of this run" is false: the output of an earlier run is returned
   when the program fails without touching the files. *)
Theorem C174_stale_refuted : forall environ f folder input output old,
  f (folder ++ [output]) = Some (File old) ->
  kawano_run environ (fun _ _ _ g => inl g) f folder input output = inl old.
Proof.
  intros environ f folder input output old H. unfold kawano_run, read_file. now rewrite H.
Qed.
Print Assumptions C174_stale_refuted.

(* It is true in the folder of a new Universe, which holds no earlier output. *)
Theorem C174_fresh : forall environ prog f folder input output f',
  wf f -> folder <> [] ->
  (forall q c, is_prefix q folder = true -> f q <> Some (File c)) ->
  output <> "log.txt"%string ->
  universe_folder f folder = inl f' ->
  (forall c v s g g', prog c v s g = inl g' -> g' (folder ++ [output]) = g (folder ++ [output])) ->
  forall text, kawano_run environ prog f' folder input output <> inl text.
Proof.
  intros environ prog f folder input output f' W NE NF NO U P text H.
  destruct (C172_universe f folder W NE NF) as [f2 [E [_ [_ [R _]]]]].
  assert (f2 = f') by congruence. subst f2.
  unfold kawano_run in H.
  destruct (prog _ _ _ f') as [g'|e] eqn:G; [|discriminate].
  apply P in G. unfold read_file in H. rewrite G, R in H; [discriminate|discriminate|congruence].
Qed.
Print Assumptions C174_fresh.

(* The command can be chosen by the environment. *)
Theorem C174_command : forall environ,
  (forall c, environ "KAWANO"%string = Some c -> command environ = c) /\
  (environ "KAWANO"%string = None -> command environ = "KAWANO/kawano_noneq"%string).
Proof. intro environ. unfold command. split; [intros c ->|intros ->]; reflexivity. Qed.
Print Assumptions C174_command.

(* The menus receive the choices run, go, exit, output, output file. *)
Theorem C174_menu : forall environ f folder input output,
  kawano_run environ (fun c _ stdin g => inl (put g (folder ++ [output]) (File (String.concat "|" stdin))))
    f folder input output = inl "|4|2||4|5|1||||"%string.
Proof.
  intros. unfold kawano_run, read_file, put. now rewrite path_eqb_refl.
Qed.
Print Assumptions C174_menu.

Definition echo : program := fun cmd e stdin f =>
  match env_get e "INPUT", env_get e "OUTPUT" with
  | Some i, Some o => match f i with
                      | Some (File t) => inl (put f o (File ("got " ++ t)%string))
                      | _ => inr FileNotFound
                      end
  | _, _ => inr FileNotFound
  end.
Example C174_example :
  honest (fun t => "got " ++ t)%string echo /\
  kawano_run (fun _ => None) echo
    (fun p => if path_eqb p ["d"; "s4.dat"]%string then Some (File "1 2"%string) else None)
    ["d"%string] "s4.dat" "out.dat" = inl "got 1 2"%string.
Proof.
  split; [|reflexivity]. intros cmd e stdin f i o text Hi Ho F. unfold echo.
  now rewrite Hi, Ho, F.
Qed.
