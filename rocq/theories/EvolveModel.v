(* Model of Universe.evolve / save / export (evolution.py:102-179, 305-350).
   The physics (make_step) is an arbitrary function of the state and of the
   recorded history; temperatures are floats including infinities and NaN. *)
From Coq Require Import Reals.
From Verif Require Import Base.
Open Scope R_scope.

(* IEEE values as seen by comparisons; zeros are not signed. *)
Inductive xr := Fin (r : R) | PInf | NInf | NaN.

(* Python `x > y` on floats: false when either side is NaN *)
Definition xgt (x y : xr) : bool :=
  match x, y with
  | NaN, _ | _, NaN => false
  | PInf, PInf => false
  | PInf, _ => true
  | _, PInf => false
  | NInf, _ => false
  | Fin _, NInf => true
  | Fin a, Fin b => if Rlt_dec b a then true else false
  end.
(* Python `x <= y` on floats *)
Definition xle (x y : xr) : bool :=
  match x, y with
  | NaN, _ | _, NaN => false
  | NInf, _ => true
  | _, PInf => true
  | PInf, _ => false
  | Fin _, NInf => false
  | Fin a, Fin b => if Rle_dec a b then true else false
  end.

Inductive failure := Exc (e : exn) | KeyboardInterrupt.

(* Files written by a run: the order of these events is the order in which
   their effect can reach the disk; a crash keeps a prefix of them. savetxt
   writes row by row (its header line is not modelled). *)
Inductive fileop (row krow : Type) :=
| TruncE | PutE (r : row)          (* evolution.txt: open 'wb'; one row *)
| TruncK | PutK (r : krow)         (* kawano.txt *)
| PutS (r : krow)                  (* s4.dat, opened once by init_kawano *)
| CloseS.                          (* and closed by export *)
Arguments TruncE {row krow}.
Arguments PutE {row krow} r.
Arguments TruncK {row krow}.
Arguments PutK {row krow} r.
Arguments PutS {row krow} r.
Arguments CloseS {row krow}.

(* content of evolution.txt / kawano.txt after some events; None = no file *)
Definition replayE {row krow} (ev : list (fileop row krow)) : option (list row) :=
  fold_left (fun c o => match o with
    | TruncE => Some []
    | PutE r => match c with Some l => Some (l ++ [r]) | None => Some [r] end
    | _ => c end) ev None.
Definition replayK {row krow} (ev : list (fileop row krow)) : option (list krow) :=
  fold_left (fun c o => match o with
    | TruncK => Some []
    | PutK r => match c with Some l => Some (l ++ [r]) | None => Some [r] end
    | _ => c end) ev None.
Definition replayS {row krow} (ev : list (fileop row krow)) : list krow :=
  fold_left (fun c o => match o with PutS r => c ++ [r] | _ => c end) ev [].

(* kawano_log has been closed *)
Definition closedS {row krow} (ev : list (fileop row krow)) : bool :=
  existsb (fun o => match o with CloseS => true | _ => false end) ev.

(* What evolve depends on. *)
Record world (St row krow : Type) := mkworld {
  temp : St -> xr;                       (* params.T *)
  row_of : St -> row;                    (* evolution.py:305-316 *)
  rates : St -> krow + failure;          (* baryonic_rates and the row, 324-344 *)
  start : bool -> St -> St + failure;    (* 123-128: init_time, first update *)
  make_step : St -> list row -> St + failure;   (* 181-197 *)
  kawano_run : St -> option failure;     (* the external KAWANO program, 168 *)
  T_kawano : xr;                         (* kawano.py:16 *)
  export_freq : nat;                     (* 22: 100 *)
  folder : bool;                         (* self.folder is set *)
  kawano : bool }.                       (* init_kawano was called *)
Arguments temp {St row krow}. Arguments row_of {St row krow}. Arguments rates {St row krow}.
Arguments start {St row krow}. Arguments make_step {St row krow}. Arguments kawano_run {St row krow}.
Arguments T_kawano {St row krow}. Arguments export_freq {St row krow}.
Arguments folder {St row krow}. Arguments kawano {St row krow}.

Record universe (St row krow : Type) := mkU {
  ust : St; udata : list row; ukdata : list krow; ustep : nat; uev : list (fileop row krow) }.
Arguments mkU {St row krow}. Arguments ust {St row krow}. Arguments udata {St row krow}.
Arguments ukdata {St row krow}. Arguments ustep {St row krow}. Arguments uev {St row krow}.
Inductive outcome (U : Type) := Done (u : U) | Fail (e : failure) (u : U).
Arguments Done {U}. Arguments Fail {U}.

Section Evolve.
Context {St row krow : Type} (w : world St row krow).
Notation universe := (universe St row krow).
Notation outcome := (outcome universe).

Definition with_st (u : universe) (s : St) : universe := mkU s (udata u) (ukdata u) (ustep u) (uev u).
Definition emit (u : universe) (ev : list (fileop row krow)) : universe := mkU (ust u) (udata u) (ukdata u) (ustep u) (uev u ++ ev).

(* 305-316 *)
Definition save_params (u : universe) : universe :=
  mkU (ust u) (udata u ++ [row_of w (ust u)]) (ukdata u) (ustep u) (uev u).

(* 318-350: kawano_log is None without a folder, so the write raises
   AttributeError after the row was appended; a closed one raises ValueError *)
Definition save (u : universe) : outcome :=
  let u := save_params u in
  if kawano w && xle (temp w (ust u)) (T_kawano w) then
    match rates w (ust u) with
    | inr e => Fail e u
    | inl k =>
        let u := mkU (ust u) (udata u) (ukdata u ++ [k]) (ustep u) (uev u) in
        if folder w then
          if closedS (uev u) then Fail (Exc ValueError) u else Done (emit u [PutS k])
        else Fail (Exc AttributeError) u
    end
  else Done u.

(* 139-144, 175-179: open(..., "wb") truncates, then savetxt writes the rows *)
Definition write_evolution (u : universe) : universe := emit u (TruncE :: map PutE (udata u)).
Definition write_kawano (u : universe) : universe := emit u (TruncK :: map PutK (ukdata u)).

(* 132-144: one iteration of the loop body, before the except clause *)
Definition body (u : universe) : outcome :=
  match make_step w (ust u) (udata u) with
  | inr e => Fail e u
  | inl s =>
      match save (with_st u s) with
      | Fail e u => Fail e u
      | Done u =>
          let u := mkU (ust u) (udata u) (ukdata u) (S (ustep u)) (uev u) in
          if folder w && (Nat.modulo (ustep u) (export_freq w) =? 0)%nat then
            let u := write_evolution u in
            Done (if kawano w then write_kawano u else u)
          else Done u
      end
  end.

(* 131-148: `while self.params.T > T_final`; KeyboardInterrupt -> sys.exit(1).
   None: still running after `fuel` iterations. *)
Fixpoint loop (fuel : nat) (Tf : xr) (u : universe) : option outcome :=
  if xgt (temp w (ust u)) Tf then
    match fuel with
    | O => None
    | S n => match body u with
             | Done u' => loop n Tf u'
             | Fail KeyboardInterrupt u' => Some (Fail (Exc (Exit 1)) u')
             | Fail e u' => Some (Fail e u')
             end
    end
  else Some (Done u).

(* 161-179 *)
Definition export (u : universe) : outcome :=
  if folder w then
    if kawano w then
      let u := emit u [CloseS] in
      match kawano_run w (ust u) with
      | Some e => Fail e u
      | None => Done (write_evolution (write_kawano u))
      end
    else Done (write_evolution u)
  else Done u.

(* 102-159 *)
Definition evolve (fuel : nat) (Tf : xr) (do_export init_time : bool) (u : universe) : option outcome :=
  match start w init_time (ust u) with
  | inr e => Some (Fail e u)
  | inl s =>
      match loop fuel Tf (save_params (with_st u s)) with
      | Some (Done u) =>
          if xgt (temp w (ust u)) (Fin 0) then
            Some (if do_export then export u else Done u)
          else Some (Fail (Exc (Exit 1)) u)
      | o => o
      end
  end.

(* n iterations of the loop, for statements about a run in progress *)
Fixpoint iterate (n : nat) (u : universe) : outcome :=
  match n with
  | O => Done u
  | S k => match body u with Done u' => iterate k u' | Fail e u' => Fail e u' end
  end.
End Evolve.

(* 329-332: the temperature derivative recorded for KAWANO *)
Definition dTdt (logmode : bool) (fraction aT T a H m : R) : R :=
  if logmode then (fraction - aT) * H / a else (fraction - T / m) * H * m.
