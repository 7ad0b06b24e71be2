(* Model of the text tables that a run writes and reads: row_repr and savetxt of
   DynamicRecArray (common/utils.py:273-302), the table s4.dat for KAWANO
   (evolution.py:73-80, 322-350; kawano.py:156-169) and kawano.import_data
   (kawano.py:172-186).  Definitions only.

   Formatting of a number ('{:e}', '{:.2e}' and numpy.savetxt's '%.18e') and its
   reading (float) are parameters.  Division of a stored number by its unit is
   that of the reals; the units are not zero. *)
From Coq Require Import Reals Ascii.
From Verif Require Import Base ArraysModel.
Open Scope R_scope.

Definition tab : ascii := ascii_of_nat 9.
Definition newline : ascii := ascii_of_nat 10.
Definition tabs : string := String tab EmptyString.
Definition eol : string := String newline EmptyString.

(* One entry [name, unit_name, unit] of the columns argument (utils.py:223-229). *)
Record column := mkcol { cname : string; cunit : option string; cfactor : R }.

(* separator + unit_name if unit_name else '' (utils.py:278, 294) *)
Definition label (separator : string) (c : column) : string :=
  match cunit c with
  | Some (String h t) => (separator ++ String h t)%string
  | _ => EmptyString
  end.

Section Text.
Variables (fmt_e fmt_2e fmt_18e : R -> string).
Variable cols : list column.

Definition names : list string := map cname cols.

(* row[name] of a structured row *)
Definition field (row : list R) (name : string) : R :=
  match col_pos names name with Some p => nth p row 0 | None => 0 end.

(* utils.py:273-286: self.data[index] follows Python's index convention *)
Definition row_repr (a : darr (list R)) (index : Z) (with_names : bool) : result string :=
  let* row := py_get (data a) index in
  Ok (String.concat tabs
        (map (fun c =>
                let v := field row (cname c) / cfactor c in
                if with_names then (cname c ++ " = " ++ fmt_2e v ++ label " " c)%string
                else fmt_e v) cols)).

(* utils.py:292-302: the rows seen as a two-dimensional array, divided by the
   row of units; numpy.savetxt writes the header after '# ' *)
Definition savetxt (a : darr (list R)) : string :=
  ("# " ++ String.concat tabs (map (fun c => (cname c ++ label ", " c)%string) cols) ++ eol
   ++ String.concat EmptyString
        (map (fun row =>
                (String.concat tabs (map (fun cv => fmt_18e (snd cv / cfactor (fst cv)))
                                         (combine cols row)) ++ eol)%string) (data a)))%string.

(* evolution.py:76-77 *)
Definition log_heading : string := (String.concat tabs names ++ eol)%string.

(* evolution.py:73-80: a new table and the heading of its file *)
Definition log_init : darr (list R) * string := (initrec 0 names, log_heading).

(* evolution.py:346-350 *)
Definition log_save (st : darr (list R) * string) (rec : recarg) : result (darr (list R) * string) :=
  let (a, r) := appendrec 0 names (fst st) rec in
  let* _ := r in
  let* line := row_repr a (-1) false in
  Ok (a, (snd st ++ line ++ eol)%string).
End Text.

(* kawano.py:156-169, with the units of time, energy, temperature and density *)
Definition heading (s MeV K9 g_cm3 : R) : list column :=
  [ mkcol "t" (Some "s") s;
    mkcol "x" (Some "MeV") MeV;
    mkcol "Tg" (Some "10^9K") K9;
    mkcol "dTg/dt" (Some "10^9K/s") (K9 / s);
    mkcol "rho_tot" (Some "g/cm^3") g_cm3;
    mkcol "H" (Some "1/s") (1 / s);
    mkcol "n nue->p e" (Some "dimensionless") 1;
    mkcol "p e->n nue" (Some "dimensionless") 1;
    mkcol "n->p e nue" (Some "dimensionless") 1;
    mkcol "p e nue->n" (Some "dimensionless") 1;
    mkcol "n e->p nue" (Some "dimensionless") 1;
    mkcol "p nue->n e" (Some "dimensionless") 1 ]%string.

(* evolution.py:334-344: the first six columns and, from the seventh on, the rates *)
Fixpoint keyed (columns : list string) (i : nat) (vs : list R) : result (list (string * R)) :=
  match vs with
  | [] => Ok []
  | v :: r => let* k := py_get columns (Z.of_nat i) in
              let* d := keyed columns (S i) r in
              Ok ((k, v) :: d)
  end.
Record kstep := mkstep { kt : R; kx : R; kT : R; kdTdt : R; krho : R; kH : R; krates : list R }.
Definition kawano_row (columns : list string) (k : kstep) : result (list (string * R)) :=
  let* d := keyed columns 0 [kt k; kx k; kT k; kdTdt k; krho k; kH k] in
  let* r := keyed columns 6 (krates k) in
  Ok (d ++ r).
(* evolution.py:322-350, when the table is being written *)
Definition save_step (fmt_e fmt_2e : R -> string) (cols : list column)
  (st : darr (list R) * string) (k : kstep) : result (darr (list R) * string) :=
  let* d := kawano_row (names cols) k in
  log_save fmt_e fmt_2e cols st (RDict d).

(* s.split(c), for a character c *)
Fixpoint split_on (c : ascii) (s : string) : list string :=
  match s with
  | EmptyString => [EmptyString]
  | String a r =>
      if Ascii.eqb a c then EmptyString :: split_on c r
      else match split_on c r with
           | h :: t => String a h :: t
           | [] => [String a EmptyString]
           end
  end.

(* The lines of a file as iterating over it gives them, without the line breaks. *)
Definition lines_of (s : string) : list string :=
  let l := split_on newline s in
  if String.eqb (last l EmptyString) EmptyString then removelast l else l.

(* A key of a dictionary: strings can be hashed, lists cannot. *)
Inductive pykey := KString (s : string) | KList (c : column).

Section Import.
Variable parse : string -> option R.          (* float(text) *)
Variable leading_int : string -> option Z.    (* int(line.split()[0]); None: an exception *)

(* {heading[i]: float(value) for i, value in enumerate(...)}: the value is
   evaluated before the key, as in Python before 3.8 *)
Fixpoint import_row (keys : list pykey) (values : list string) {struct values} : result (list (string * R)) :=
  match values with
  | [] => Ok []
  | v :: r =>
      match parse v with
      | None => Raise ValueError
      | Some x =>
          match keys with
          | [] => Raise IndexError
          | KList _ :: _ => Raise TypeError
          | KString s :: ks => let* d := import_row ks r in Ok ((s, x) :: d)
          end
      end
  end.
Fixpoint import_rows (keys : list pykey) (lines : list string) : result (list (list (string * R))) :=
  match lines with
  | [] => Ok []
  | l :: r => let* d := import_row keys (split_on tab l) in
              let* ds := import_rows keys r in
              Ok (d :: ds)
  end.
(* The keys are the entries of heading, which are lists. *)
Definition import_with (keys : list pykey) (file : string) : result (list (list (string * R))) :=
  match lines_of file with
  | [] => Ok []
  | first :: rest =>
      import_rows keys
        (match leading_int first with
         | Some n => if (n =? 0)%Z then rest else tl rest
         | None => rest
         end)
  end.
Definition import_data (cols : list column) : string -> result (list (list (string * R))) :=
  import_with (map KList cols).
End Import.
