(* Model of kawano.run (kawano.py:33-56): the KAWANO program as a child process.
   Definitions only.

   The program is an arbitrary function: from its command, environment and standard
   input, and the files, to the files it leaves; its exit status is not looked at by
   the code.  Popen itself may raise.  File names are relative and have no
   separators. *)
From Verif Require Import Base SystemModel.

Definition environment := list (string * path).
Definition program := string -> environment -> list string -> fs -> fresult fs.

(* The lines sent to the menus of the program (39-53), joined by os.linesep *)
Definition menu : list string :=
  [""; "4"; "2"; ""; "4"; "5"; "1"; ""; ""; ""; ""]%string.

(* utils.getenv('KAWANO', 'KAWANO/kawano_noneq') (34; utils.py:102-103) *)
Definition command (environ : string -> option string) : string :=
  match environ "KAWANO"%string with Some c => c | None => "KAWANO/kawano_noneq"%string end.

(* open(..., "r").read() (54-56) *)
Definition read_file (f : fs) (p : path) : fresult string :=
  match f p with
  | Some (File c) => inl c
  | Some Dir => inr IsADirectory
  | None => inr FileNotFound
  end.

(* 33-56 *)
Definition kawano_run (environ : string -> option string) (prog : program) (f : fs)
           (folder : path) (input output : string) : fresult string :=
  match prog (command environ)
             [("INPUT"%string, folder ++ [input]); ("OUTPUT"%string, folder ++ [output])] menu f with
  | inr e => inr e
  | inl f' => read_file f' (folder ++ [output])
  end.
