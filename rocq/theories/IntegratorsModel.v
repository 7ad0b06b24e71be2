(* Model of common/integrators/__init__.py and paired.py. Floats are reals;
   numpy arrays of unknowns are treated one component at a time. *)
From Coq Require Import Reals.
From Verif Require Import Base.
Open Scope R_scope.

(* integrators/__init__.py:11-31 *)
Definition euler_correction (y t : R) (f : R -> R -> R) (h : R) : R := h * f t y.
(* 34-48 *)
Definition heun_correction (y t : R) (f : R -> R -> R) (h : R) : R :=
  let euler_y := euler_correction y t f h in
  let heun_y := euler_correction (y + euler_y) (t + h) f h in
  (euler_y + heun_y) / 2.
(* 51-68; the Python division by an exact zero is numpy inf/NaN *)
Definition implicit_euler (y t A B h : R) : R := (y + A * h) / (1 - B * h).

(* 71-77 *)
Definition AB_coefficients (order : Z) : option (list R * R) :=
  match order with
  | 1%Z => Some ([1], 1)
  | 2%Z => Some ([-1; 3], 2)
  | 3%Z => Some ([5; -16; 23], 12)
  | 4%Z => Some ([-9; 37; -59; 55], 24)
  | 5%Z => Some ([251; -1274; 2616; -2774; 1901], 720)
  | _ => None
  end.
Definition MAX_AB : Z := 5.
(* sum(b * f for b, f in zip(bs, fs)) *)
Fixpoint zipdot (bs fs : list R) : R :=
  match bs, fs with
  | b :: bs', f :: fs' => b * f + zipdot bs' fs'
  | _, _ => 0
  end.

(* 80-89 *)
Definition adams_bashforth (fs : list R) (h : R) (order : option Z) : result R :=
  let order := match order with None => Z.min MAX_AB (Z.of_nat (length fs)) | Some o => o end in
  match AB_coefficients order with
  | None => Raise KeyError
  | Some (bs, divider) =>
      let fs := py_suffix fs (- order) in
      if (Z.of_nat (length fs) =? order)%Z then Ok (h * zipdot bs fs / divider)
      else Raise AssertionError
  end.

(* 92-98 *)
Definition AM_coefficients (order : Z) : option (list R * R) :=
  match order with
  | 1%Z => Some ([1], 1)
  | 2%Z => Some ([1; 1], 2)
  | 3%Z => Some ([-1; 8; 5], 12)
  | 4%Z => Some ([1; -5; 19; 9], 24)
  | 5%Z => Some ([-19; 106; -264; 646; 251], 720)
  | _ => None
  end.
Definition MAX_AM : Z := 5.

(* 101-112. `fs[-(order-1):]` with order = 1 is fs[0:], the whole list. *)
Definition adams_moulton (y : R) (fs : list R) (A B h : R) (order : option Z) : result R :=
  let order := match order with None => Z.min MAX_AM (Z.of_nat (length fs) + 1) | Some o => o end in
  match AM_coefficients order with
  | None => Raise KeyError
  | Some (bs, divider) =>
      let fs := py_suffix fs (- (order - 1)) ++ [A] in
      if (Z.of_nat (length fs) =? order)%Z
      then Ok ((y + h * zipdot bs fs / divider) / (1 - h * B * last bs 0 / divider))
      else Raise AssertionError
  end.

(* evolution.py:187-192: the aT increment made by make_step with the default
   Adams-Bashforth option; `history` is the recorded column data['fraction'] *)
Definition make_step_increment (history : list R) (fraction h : R) : result R :=
  adams_bashforth (py_suffix history (- MAX_AB) ++ [fraction]) h None.

(* ------------------------------------------------------------------ *)
(* Gauss-Legendre data: nodes and weights from numpy leggauss, arbitrary here *)
Definition rule := list (R * R).   (* (node, weight) *)
Definition rule_sum (q : rule) (f : R -> R) : R :=
  fold_right (fun nw acc => f (fst nw) * snd nw + acc) 0 q.

(* 142-150 *)
Definition gaussian (q : rule) (f : R -> R) (a b : R) : R :=
  let sub := (b - a) / 2 in
  let add := (b + a) / 2 in
  if Req_EM_T sub 0 then 0 else sub * rule_sum q (fun x => f (sub * x + add)).

(* 153-166 *)
Definition remap_interval (f : R -> R -> R) (x y a b : R) (g h : R -> R) : R :=
  let sub_x := (b - a) / 2 in
  let add_x := (b + a) / 2 in
  let norm_x := sub_x * x + add_x in
  let h_x := h norm_x in
  let g_x := g norm_x in
  let sub_y := (h_x - g_x) / 2 in
  let add_y := (h_x + g_x) / 2 in
  let norm_y := sub_y * y + add_y in
  sub_x * sub_y * f norm_x norm_y.

(* 169-176. numpy.meshgrid(points, points): x[i,j] = points[j], y[i,j] =
   points[i]; w^T (mesh w) sums the columns (x) inside and the rows (y) outside. *)
Definition double_gaussian (q : rule) (f : R -> R -> R) (a b : R) (g h : R -> R) : R :=
  rule_sum q (fun y => rule_sum q (fun x => remap_interval f x y a b g h)).

(* paired.py:33-47 *)
Definition paired_remap (fs : R -> R -> R * R) (x y a b : R) (g h : R -> R) : R * R :=
  let sub_x := (b - a) / 2 in
  let add_x := (b + a) / 2 in
  let norm_x := sub_x * x + add_x in
  let h_x := h norm_x in
  let g_x := g norm_x in
  let sub_y := (h_x - g_x) / 2 in
  let add_y := (h_x + g_x) / 2 in
  let norm_y := sub_y * y + add_y in
  let f12 := fs norm_x norm_y in
  (sub_x * sub_y * fst f12, sub_x * sub_y * snd f12).

(* paired.py:50-57 *)
Definition paired_double_gaussian (q : rule) (fs : R -> R -> R * R) (a b : R) (g h : R -> R) : R * R :=
  (rule_sum q (fun y => rule_sum q (fun x => fst (paired_remap fs x y a b g h))),
   rule_sum q (fun y => rule_sum q (fun x => snd (paired_remap fs x y a b g h)))).
