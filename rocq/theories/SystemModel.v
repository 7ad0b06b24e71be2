(* Model of the helpers that touch the world outside the computation: printoptions
   and benchmark (common/utils.py:76-99), Logger (10-27) as installed by Universe
   (evolution.py:352-354), ensure_path and ensure_dir (utils.py:111-122) and the
   output folder of a Universe (evolution.py:63-67, 352-354).  Definitions only. *)
From Verif Require Import Base.
Local Notation length := List.length.

(* ------------------------------------------------------------------ *)
(* Context managers.  The body of a with statement acts on a world W and returns or
   raises; what it did to the world before it raised stays done. *)
Definition body (W A : Type) := W -> W * result A.

(* numpy's print options: name -> value *)
Definition options (V : Type) := string -> V.
Definition set_options {V} (kw : list (string * V)) (o : options V) : options V :=
  fun k => match find (fun p => String.eqb (fst p) k) kw with
           | Some p => snd p
           | None => o k
           end.
(* set_printoptions of all options returned by get_printoptions *)
Definition reset_options {V} (o : options V) (_ : options V) : options V := o.

(* utils.py:94-99.  contextlib throws the exception of the body into the generator at
   its yield; nothing catches it there, so line 99 does not run. *)
Definition printoptions {V A} (kw : list (string * V)) (b : body (options V) A)
  : body (options V) A :=
  fun original =>
    let '(o, r) := b (set_options kw original) in
    match r with
    | Ok a => (reset_options original o, Ok a)
    | Raise e => (o, Raise e)
    end.

(* utils.py:76-91.  clock is time.time() and say is print of one line: the name and
   the time taken; the name is a string or a function called at the end (90). *)
Inductive bname (W : Type) := Plain (s : string) | Callable (f : body W string).
Arguments Plain {W}. Arguments Callable {W}.
Definition name_at_exit {W} (n : bname W) : body W string :=
  match n with
  | Plain s => fun w => (w, Ok s)
  | Callable f => f
  end.
Definition benchmark {W A T} (clock : W -> T) (say : string -> T -> T -> W -> W)
           (n : bname W) (show : bool) (b : body W A) : body W A :=
  fun w =>
    let start := clock w in
    let '(w1, r) := b w in
    if show then
      let fin := clock w1 in
      match name_at_exit n w1 with
      | (w2, Ok s) => (say s start fin w2, r)
      | (w2, Raise e) => (w2, Raise e)
      end
    else (w1, r).

(* ------------------------------------------------------------------ *)
(* sys.stdout: the terminal, some other file, or a Logger with a number and what was
   sys.stdout when it was made (utils.py:12-14). *)
Inductive stream := Screen | Other (f : nat) | Log (k : nat) (terminal : stream).

Inductive sink := ToScreen | ToOther (f : nat) | ToLog (k : nat).
(* sys.stdout.write(message) (utils.py:16-20): where the message is written, in order *)
Fixpoint sinks (s : stream) : list sink :=
  match s with
  | Screen => [ToScreen]
  | Other f => [ToOther f]
  | Log k t => sinks t ++ [ToLog k]
  end.

(* Logger.write with its flags (16-20) *)
Definition log_write (k : nat) (t : stream) (terminal log : bool) : list sink :=
  (if terminal then sinks t else []) ++ (if log then [ToLog k] else []).

Fixpoint mentions (k : nat) (s : stream) : bool :=
  match s with
  | Log j t => Nat.eqb j k || mentions k t
  | _ => false
  end.

(* sys.stdout = new.  When the Logger that was installed is referenced from nowhere
   else, it is finalised right after the assignment, and its __del__ (22-24) assigns
   sys.stdout once more.  held tells whether it is referenced from elsewhere.
   Used for values new that are not themselves Loggers, or wrap the old stream. *)
Definition set_stdout (held : bool) (new old : stream) : stream :=
  match old with
  | Log k t => if held || mentions k new then new else t
  | _ => new
  end.

(* Making the Universe number k with an output folder (evolution.py:352-354) *)
Definition install (k : nat) (old : stream) : stream := set_stdout false (Log k old) old.

(* Making Universes with the given numbers, one after the other *)
Definition installs (ks : list nat) (s : stream) : stream :=
  fold_left (fun s k => install k s) ks s.

(* ------------------------------------------------------------------ *)
(* Files: a path is relative to the working directory and given by its components;
   the empty list is the empty string.  Links, permissions and other processes are
   not modelled. *)
Definition path := list string.
Inductive node := Dir | File (content : string).
Definition fs := path -> option node.
Inductive oserror := FileNotFound | FileExists | NotADirectory | IsADirectory.
Definition fresult (A : Type) := (A + oserror)%type.

Definition path_eqb (p q : path) : bool := if list_eq_dec string_dec p q then true else false.
Definition put (f : fs) (p : path) (n : node) : fs := fun q => if path_eqb p q then Some n else f q.

(* The parent directory of a path: for a single name it is the working directory *)
Definition parent_ok (f : fs) (p : path) : fresult unit :=
  match removelast p with
  | [] => inl tt
  | d => match f d with
         | Some Dir => inl tt
         | Some (File _) => inr NotADirectory
         | None => inr FileNotFound
         end
  end.

(* os.mkdir *)
Definition mkdir (f : fs) (p : path) : fresult fs :=
  match p with
  | [] => inr FileNotFound
  | _ => match f p with
         | Some _ => inr FileExists
         | None => match parent_ok f p with
                   | inl _ => inl (put f p Dir)
                   | inr e => inr e
                   end
         end
  end.

(* os.makedirs: the missing ancestors first; fuel is the number of components *)
Fixpoint makedirs (fuel : nat) (f : fs) (p : path) : fresult fs :=
  match fuel with
  | O => mkdir f p
  | S m =>
      let d := removelast p in
      match d, f d with
      | _ :: _, None =>
          match makedirs m f d with
          | inl f' => mkdir f' p
          | inr FileExists => mkdir f p
          | inr e => inr e
          end
      | _, _ => mkdir f p
      end
  end.

(* utils.py:118-122; os.path.exists('') is false *)
Definition exists_path (f : fs) (p : path) : bool :=
  match p with [] => false | _ => match f p with Some _ => true | None => false end end.
Definition ensure_dir (f : fs) (p : path) : fresult fs :=
  if exists_path f p then inl f else makedirs (length p) f p.

(* utils.py:111-115; os.path.dirname drops the last component *)
Definition ensure_path (f : fs) (p : path) : fresult fs := ensure_dir f (removelast p).

(* codecs.open(name, "wb") (utils.py:14): an empty file *)
Definition create (f : fs) (p : path) : fresult fs :=
  match p with
  | [] => inr FileNotFound
  | _ => match f p with
         | Some Dir => inr IsADirectory
         | _ => match parent_ok f p with
                | inl _ => inl (put f p (File EmptyString))
                | inr e => inr e
                end
         end
  end.

Fixpoint is_prefix (p q : path) : bool :=
  match p, q with
  | [], _ => true
  | a :: p', b :: q' => String.eqb a b && is_prefix p' q'
  | _, _ => false
  end.

(* shutil.rmtree: the directory and all below it *)
Definition rmtree (f : fs) (p : path) : fresult fs :=
  match f p with
  | Some Dir => inl (fun q => if is_prefix p q then None else f q)
  | Some (File _) => inr NotADirectory
  | None => inr FileNotFound
  end.

(* evolution.py:63-67, 352-354 and utils.py:14: the folder of a new Universe.  An
   empty folder argument is false and nothing is done. *)
Definition universe_folder (f : fs) (folder : path) : fresult fs :=
  match folder with
  | [] => inl f
  | _ =>
      let cleared := if exists_path f folder then rmtree f folder else inl f in
      match cleared with
      | inr e => inr e
      | inl f1 =>
          let logfile := folder ++ ["log.txt"%string] in
          match ensure_path f1 logfile with
          | inr e => inr e
          | inl f2 => create f2 logfile
          end
      end
  end.
