(* Model of plotting.py: the ageing of curves (386-395), the limits of the four
   cosmological plots (135-166), the figure of monitored particles (119-133), the
   recorded history of a monitor (169-197) and the live monitor of a data file
   (15-52).  Definitions only.

   Drawing itself is not modelled.  An axis is its pair of limits, as set by
   set_xlim/set_ylim and returned by get_xlim/get_ylim; a curve is the frame in
   which it was drawn together with its opacity.  Numbers are reals. *)
From Coq Require Import Reals List ZArith Arith Lia.
From Verif Require Import Base.
Import ListNotations.
Open Scope R_scope.

(* ------------------------------------------------------------------ *)
(* Curves.  line.get_alpha() is None for a new curve (196). *)
Record curve := mkcurve { cframe : nat; calpha : option R }.

(* line.get_alpha() or 1. (plotting.py:390, 394): None and 0 are false *)
Definition opacity (c : curve) : R :=
  match calpha c with
  | None => 1
  | Some a => if Req_EM_T a 0 then 1 else a
  end.

(* plotting.py:386-395.  The loop iterates over the very list from which
   line.remove() takes the curve, so the curve that follows a removed one moves
   into its place and is not visited. *)
Fixpoint age_lines (ls : list curve) : list curve :=
  match ls with
  | [] => []
  | c :: r =>
      if Rlt_dec (opacity c) (1/10)
      then match r with
           | [] => []
           | d :: r' => d :: age_lines r'
           end
      else mkcurve (cframe c) (Some (opacity c * (8/10))) :: age_lines r
  end.

(* One call of plot() of a monitor: age_lines, then a new curve
   (plotting.py:236-237, 308-314) *)
Definition frame (ls : list curve) (k : nat) : list curve :=
  age_lines ls ++ [mkcurve k None].

(* The curves on the axes after n calls of plot(), numbered from 0 *)
Fixpoint frames (n : nat) : list curve :=
  match n with
  | O => []
  | S m => frame (frames m) m
  end.

(* ------------------------------------------------------------------ *)
(* ring_deque of numbers (common/utils.py:48-73), as used at plotting.py:98-102 *)
Record rdeque := mkrd { rd_items : list R; rd_max : R; rd_min : R; rd_used : bool }.

Definition rd_new : rdeque := mkrd [] 0 0 false.            (* utils.py:51-56 *)

(* utils.py:58-73; n is the length given to the constructor *)
Definition rd_append (n : nat) (q : rdeque) (x : R) : rdeque :=
  if rd_used q
  then mkrd ((if Nat.ltb n (List.length (rd_items q)) then tl (rd_items q) else rd_items q) ++ [x])
            (Rmax x (rd_max q)) (Rmin x (rd_min q)) true
  else mkrd (rd_items q ++ [x]) x x true.

(* One of the four plots: its limits and its data (plotting.py:63-102) *)
Record axis := mkaxis { xlim : R * R; ylim : R * R; pdata : rdeque }.

(* plotting.py:145-158 for one plot; t0 is self.times[0], last_t and last_data the
   new point *)
Definition plot_axis (n : nat) (t0 last_t last_data : R) (p : axis) : axis :=
  let xl := if Rle_dec (snd (xlim p)) last_t then (t0, last_t * (11/10)) else xlim p in
  let q := rd_append n (pdata p) last_data in
  let yl1 := if Rle_dec (snd (ylim p)) last_data
             then (rd_min q, 11/10 * last_data) else ylim p in
  let yl2 := if Rle_dec last_data (fst (ylim p))
             then (last_data / (11/10), rd_max q) else yl1 in
  mkaxis xl yl2 q.

(* The times and the plots of a Plotting object *)
Record plotting := mkplot { times : rdeque; axes : list axis }.

(* plotting.py:135-158: a row is the time in seconds and the quantity of every
   plot in its unit; a row at time zero is skipped (139-140) *)
Definition plot_row (n : nat) (g : plotting) (row : R * list R) : plotting :=
  let last_t := fst row in
  if Req_EM_T last_t 0 then g else
  let ts := rd_append n (times g) last_t in
  let t0 := hd 0 (rd_items ts) in
  mkplot ts (map (fun pv => plot_axis n t0 last_t (snd pv) (fst pv))
                 (combine (axes g) (snd row))).

Definition plot_rows (n : nat) (g : plotting) (rows : list (R * list R)) : plotting :=
  fold_left (plot_row n) rows g.

(* A fresh object whose plots have the given limits (plotting.py:58-102) *)
Definition new_plotting (lims : list ((R * R) * (R * R))) : plotting :=
  mkplot rd_new (map (fun l => mkaxis (fst l) (snd l) rd_new) lims).

(* ------------------------------------------------------------------ *)
(* What plt.subplots(nrows, 2) returns: with one row the array of axes is
   one-dimensional.  An axes object is named by its row and column. *)
Inductive subplots := Axes1 (l : list (nat * nat)) | Axes2 (l : list (list (nat * nat))).

Definition mk_subplots (nrows : nat) : result subplots :=
  match nrows with
  | O => Raise ValueError
  | S O => Ok (Axes1 [(0, 0); (0, 1)]%nat)
  | _ => Ok (Axes2 (map (fun i => [(i, 0); (i, 1)]%nat) (seq 0 nrows)))
  end.

(* self.particles_plots[i] is an axes object or an array of two of them; the
   constructors of all monitors begin with self.plots[0] (201-204, 286-289, ...),
   which an axes object does not support. *)
Inductive cell := OneAxes (x : nat * nat) | RowAxes (l : list (nat * nat)).
Definition cell_at (s : subplots) (i : nat) : result cell :=
  match s with
  | Axes1 l => match nth_error l i with Some x => Ok (OneAxes x) | None => Raise IndexError end
  | Axes2 l => match nth_error l i with Some r => Ok (RowAxes r) | None => Raise IndexError end
  end.
Definition new_monitor (c : cell) : result (list (nat * nat)) :=
  match c with
  | OneAxes _ => Raise TypeError
  | RowAxes r => Ok r
  end.

(* plotting.py:119-133: every particle of the map gets a monitor; the result is
   self.particles with the axes of each monitor *)
Fixpoint monitor_from {P} (s : subplots) (i : nat) (ps : list P)
  : result (list (P * list (nat * nat))) :=
  match ps with
  | [] => Ok []
  | p :: r =>
      let* c := cell_at s i in
      let* m := new_monitor c in
      let* rest := monitor_from s (S i) r in
      Ok ((p, m) :: rest)
  end.
Definition monitor {P} (before : list (P * list (nat * nat))) (ps : list P)
  : result (list (P * list (nat * nat))) :=
  let* s := mk_subplots (List.length ps) in
  let* new := monitor_from s 0 ps in
  Ok (before ++ new).

(* ------------------------------------------------------------------ *)
(* plotting.py:18-26: plot_backlog plots data[:i] for i = last+1, ..., len-1; the
   plot of data[:i] shows row i-1 (138, 152).  The result is the list of rows
   plotted. *)
Definition plot_backlog (last len : nat) : list nat :=
  map (fun i => i - 1)%nat (seq (S last) (len - S last)).

(* The live monitor: rows plotted since the plots were last cleared, the number of
   rows at the last successful read and the modification time last seen. *)
Record live := mklive { shown : list nat; last_len : nat; last_mtime : Z }.

(* plotting.py:28-33: the file is read, plotted, and only then its time is taken *)
Definition live_start (len : nat) (mtime : Z) : live :=
  mklive (plot_backlog 0 len) len mtime.

(* plotting.py:34-52, one turn of the loop: the modification time found, and the
   number of rows read or None if the file could not be read (48-49).  Plotting
   itself does not raise. *)
Definition live_poll (s : live) (ev : Z * option nat) : live :=
  let '(mtime, rd) := ev in
  if (mtime >? last_mtime s)%Z then
    match rd with
    | None => mklive (shown s) (last_len s) mtime
    | Some len =>
        if Nat.ltb len (last_len s)
        then mklive (plot_backlog 0 len) len mtime
        else mklive (shown s ++ plot_backlog (last_len s) len) len mtime
    end
  else s.
Definition live_run (s : live) (evs : list (Z * option nat)) : live :=
  fold_left live_poll evs s.

(* ------------------------------------------------------------------ *)
(* plotting.py:169-197: the history kept by a monitor, per plot number.  Points of
   scatter are pairs, recorded in two lists; the class attribute data = None is
   replaced by a dictionary of the instance on the first call. *)
Definition history := list (nat * (list R * list R)).
Fixpoint hist_add (h : history) (plot : nat) (x y : R) : history :=
  match h with
  | [] => [(plot, ([x], [y]))]
  | (k, (xs, ys)) :: r =>
      if Nat.eqb k plot then (k, (xs ++ [x], ys ++ [y])) :: r
      else (k, (xs, ys)) :: hist_add r plot x y
  end.
Definition scatter (data : option history) (plot : nat) (x y : R) : option history :=
  Some (hist_add (match data with Some ((_ :: _) as h) => h | _ => [] end) plot x y).
Fixpoint hist_get (h : history) (plot : nat) : list R * list R :=
  match h with
  | [] => ([], [])
  | (k, v) :: r => if Nat.eqb k plot then v else hist_get r plot
  end.
Definition recorded (data : option history) (plot : nat) : list R * list R :=
  match data with None => ([], []) | Some h => hist_get h plot end.
Definition scatters (pts : list (nat * (R * R))) : option history :=
  fold_left (fun d p => scatter d (fst p) (fst (snd p)) (snd (snd p))) pts None.
