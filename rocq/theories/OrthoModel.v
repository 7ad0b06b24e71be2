(* Model of common/orthopoly.py: Gauss, Radau and Lobatto rules, the recursion
   coefficients of the Jacobi polynomials, their evaluation, and the modified
   Chebyshev algorithm.  Arrays are lists of real numbers (float64 rounding is
   not modelled); the LAPACK routines behind scipy.linalg and scipy.special's
   gamma are parameters. *)
From Coq Require Import Reals.
From Verif Require Import Base.
Open Scope R_scope.
Local Notation length := List.length.

(* The interpreter: the file uses the built-ins [xrange] and [reduce], which
   exist in Python 2 only (__init__.py:18 asks for Python 3.5 or later). *)
Inductive python := Py2 | Py3.
Definition py2_builtin (v : python) : result unit :=
  match v with Py2 => Ok tt | Py3 => Raise NameError end.

(* Element k of an array the code has already checked to be long enough. *)
Definition el (l : list R) (k : nat) : R := nth k l 0.

(* numpy.sqrt of an array followed by a scipy.linalg routine: a negative entry
   becomes nan and the routine's check_finite raises ValueError
   (orthopoly.py:56-57, 83-85, 115-120). *)
Definition roots (l : list R) : result (list R) :=
  if forallb (fun b => if Rlt_dec b 0 then false else true) l
  then Ok (map sqrt l) else Raise ValueError.

(* numpy.vstack((numpy.sqrt(beta), alpha)) (orthopoly.py:56): rows of unequal
   lengths raise ValueError. *)
Definition stacked (beta alpha : list R) : result (list R * list R) :=
  if Nat.eqb (length beta) (length alpha)
  then let* s := roots beta in Ok (s, alpha) else Raise ValueError.

(* eig_banded(A, lower=False): the eigenvalues and the rows of the matrix of
   eigenvectors of the symmetric tridiagonal matrix with diagonal A[1,:] and
   upper diagonal A[0,1:]. *)
Definition eigen := list R -> list R -> result (list R * list (list R)).
(* solve_banded((1,1), J, f) with the three rows of J. *)
Definition banded := list R -> list R -> list R -> list R -> result (list R).

(* orthopoly.py:37-59 *)
Definition gauss (eig : eigen) (alpha beta : list R) : result (list R * list R) :=
  let* (s, d) := stacked beta alpha in
  let* (x, V) := eig s d in
  let* b0 := py_get beta 0 in
  let* v0 := py_get V 0 in
  Ok (x, map (fun v => b0 * v ^ 2) v0).

(* An array after [a[-1] = v]. *)
Definition set_last (v : R) (l : list R) : list R := set_nth (pred (length l)) v l.

(* What a caller sees after a call: the outcome, and the two arrays it passed. *)
Record call := { outcome : result (list R * list R); alpha_after : list R; beta_after : list R }.

(* The rows of [vstack((A[:,0:-1], A[0,1:]))] for A = vstack((sqrt(beta), alpha - x0))
   (orthopoly.py:83-84, 115-118). *)
Definition shifted_rows (alpha beta : list R) (x0 : R) : result (list R * list R * list R) :=
  let* (s, d) := stacked beta (map (fun a => a - x0) alpha) in
  Ok (removelast s, removelast d, tl s).

(* numpy.zeros(n) with the last entry set to v (orthopoly.py:81-82, 113-114):
   n = -1 raises ValueError, n = 0 raises IndexError.  The argument is n + 1. *)
Definition unit_rhs (n1 : nat) (v : R) : result (list R) :=
  match n1 with
  | O => Raise ValueError
  | S O => Raise IndexError
  | S n => Ok (repeat 0 (pred n) ++ [v])
  end.

(* orthopoly.py:62-89.  [alphar = alpha] does not copy: the caller's array is
   the one that is overwritten. *)
Definition radau_shift (sol : banded) (alpha beta : list R) (xr : R) : result (list R) :=
  let* z := unit_rhs (length alpha) 0 in
  let* b := py_get beta (-1) in
  let* f := unit_rhs (length alpha) b in
  let* (u, d, l) := shifted_rows alpha beta xr in
  let* delta := sol u d l f in
  let* dl := py_get delta (-1) in
  Ok (set_last (xr + dl) alpha).

Definition radau (eig : eigen) (sol : banded) (alpha beta : list R) (xr : R) : call :=
  match radau_shift sol alpha beta xr with
  | Raise e => {| outcome := Raise e; alpha_after := alpha; beta_after := beta |}
  | Ok alphar => {| outcome := gauss eig alphar beta; alpha_after := alphar; beta_after := beta |}
  end.

(* orthopoly.py:92-130: solve(C, xl) with C = ((1, -g1[-1]), (1, -g2[-1]));
   a singular C raises LinAlgError. *)
Definition solve2 (g1 g2 xl1 xl2 : R) : result (R * R) :=
  if Req_EM_T g1 g2 then Raise GenericException
  else let b := (xl2 - xl1) / (g1 - g2) in Ok (xl1 + g1 * b, b).

Definition lobatto_ends (sol : banded) (alpha beta : list R) (xl1 xl2 : R) : result (R * R) :=
  let* en := unit_rhs (length alpha) 1 in
  let* (u1, d1, l1) := shifted_rows alpha beta xl1 in
  let* (u2, d2, l2) := shifted_rows alpha beta xl2 in
  let* g1 := sol u1 d1 l1 en in
  let* g2 := sol u2 d2 l2 en in
  let* e1 := py_get g1 (-1) in
  let* e2 := py_get g2 (-1) in
  solve2 e1 e2 xl1 xl2.

Definition lobatto (eig : eigen) (sol : banded) (alpha beta : list R) (xl1 xl2 : R) : call :=
  match lobatto_ends sol alpha beta xl1 xl2 with
  | Raise e => {| outcome := Raise e; alpha_after := alpha; beta_after := beta |}
  | Ok (a, b) =>
      let alphal := set_last a alpha in
      let betal := set_last b beta in
      {| outcome := gauss eig alphal betal; alpha_after := alphal; beta_after := betal |}
  end.

(* What rec_jacobi returns: bare numbers when N == 1, arrays otherwise
   (orthopoly.py:160-173). *)
Inductive coefficients :=
| Numbers (alpha beta : R)
| Arrays (alpha beta : list R).

(* orthopoly.py:133-173.  [power2 s] is 2**s and [gamma] scipy.special.gamma. *)
Section Jacobi.
Variables (gamma power2 : R -> R).

(* numpy.arange(1.0, N) *)
Definition arange1 (N : Z) : list R := map INR (seq 1 (Z.to_nat (N - 1))).

Definition rec_jacobi (N : Z) (a b : R) : result coefficients :=
  if Req_EM_T (a + b + 2) 0 then Raise ZeroDivisionError else
  let nu := (b - a) / (a + b + 2) in
  let mu := power2 (a + b + 1) * gamma (a + 1) * gamma (b + 1) / gamma (a + b + 2) in
  if (N =? 1)%Z then Ok (Numbers nu mu) else
  let n := arange1 N in
  let alpha := nu :: map (fun n => let nab := 2 * n + a + b in
                                   (b ^ 2 - a ^ 2) / (nab * (nab + 2))) n in
  if Req_EM_T ((a + b + 2) ^ 2 * (a + b + 3)) 0 then Raise ZeroDivisionError else
  let B1 := 4 * (a + 1) * (b + 1) / ((a + b + 2) ^ 2 * (a + b + 3)) in
  let B := map (fun n => let nab := 2 * n + a + b in
                         4 * (n + a) * (n + b) * n * (n + a + b)
                         / (nab ^ 2 * (nab + 1) * (nab - 1))) (tl n) in
  Ok (Arrays alpha (mu :: B1 :: B)).

(* orthopoly.py:177-214.  Indexing a numpy number raises IndexError. *)
Definition rec_jacobi01 (N : Z) (a b : R) : result coefficients :=
  if Rle_dec a (-1) then Raise ValueError else
  if Rle_dec b (-1) then Raise ValueError else
  if (N <? 1)%Z then Raise ValueError else
  let* r := rec_jacobi N a b in
  match r with
  | Numbers _ _ => Raise IndexError
  | Arrays c d =>
      let* d0 := py_get d 0 in
      Ok (Arrays (map (fun c => (1 + c) / 2) c)
                 (set_nth 0 (d0 / power2 (a + b + 1)) (map (fun d => d / 4) d)))
  end.

(* gauss of the pair returned by rec_jacobi: [beta[0]] of a bare number raises
   IndexError, after eig_banded has been called (orthopoly.py:56-58). *)
Definition gauss_of (eig : eigen) (c : coefficients) : result (list R * list R) :=
  match c with
  | Arrays alpha beta => gauss eig alpha beta
  | Numbers alpha beta =>
      let* (s, d) := stacked [beta] [alpha] in
      let* _ := eig s d in Raise IndexError
  end.

(* orthopoly.py:235-271: column k of row x, newest first. *)
Definition jacobi_next (a b x : R) (k : R) (p1 p2 : R) : R :=
  let apb := a + b in
  let c := apb * (a - b) in
  let k2 := 2 * k in
  let g := k2 + apb in
  let g1 := g - 1 in
  let g2 := g - 2 in
  let d := 2 * (k + (a - 1)) * (k + (b - 1)) * g in
  (g1 * (c + g2 * g * x) * p1 - d * p2) / (k2 * (k + apb) * g2).

Fixpoint jacobi_loop (a b x : R) (k n : nat) (p1 p2 : R) : list R :=
  match n with
  | O => []
  | S n' => let p := jacobi_next a b x (INR k) p1 p2 in p :: jacobi_loop a b x (S k) n' p p1
  end.

Definition jacobi_row (N : nat) (a b x : R) : list R :=
  match N with
  | O => [1]
  | S n => let p1 := / 2 * (a - b + (a + b + 2) * x) in 1 :: p1 :: jacobi_loop a b x 2 n p1 1
  end.

Definition pnorm (a b : R) (k : nat) : R :=
  let r := INR k in
  power2 (a + b + 1) * gamma (r + a + 1) * gamma (r + b + 1)
  / ((2 * r + a + b + 1) * (gamma (r + 1) * gamma (r + a + b + 1))).

Definition jacobi (v : python) (N : nat) (a b : R) (xs : list R) (NOPT : Z)
  : result (list (list R)) :=
  let* _ := if (1 <? Z.of_nat N)%Z then py2_builtin v else Ok tt in
  let P := map (jacobi_row N a b) xs in
  Ok (if (NOPT =? 2)%Z
      then map (fun row => map (fun kp => snd kp * (1 / sqrt (pnorm a b (fst kp))))
                               (combine (seq 0 (S N)) row)) P
      else P).

(* orthopoly.py:274-290 *)
Definition jacobiD (v : python) (N : nat) (a b : R) (xs : list R) (NOPT : Z)
  : result (list (list R)) :=
  match N with
  | O => Ok (map (fun _ => [0]) xs)
  | S n =>
      let* P := jacobi v n (a + 1) (b + 1) xs NOPT in
      Ok (map (fun row => map (Rmult (/ 2))
                (0 :: map (fun kp => snd kp * (a + b + 2 + INR (fst kp)))
                          (combine (seq 0 N) row))) P)
  end.

(* orthopoly.py:217-232 *)
Fixpoint polyval_loop (x : R) (ab : list (R * R)) (p1 p2 : R) : list R :=
  match ab with
  | [] => []
  | (a, b) :: r => let p := (x - a) * p1 - b * p2 in p :: polyval_loop x r p p1
  end.

Definition polyval (v : python) (alpha beta xs : list R) : result (list (list R)) :=
  match alpha with
  | [] => Raise IndexError
  | a0 :: ar =>
      let* _ := py2_builtin v in
      if Nat.ltb (length beta) (length alpha)
      then (if Nat.ltb 1 (length alpha) then Raise IndexError
            else Ok (map (fun x => [1; (x - a0) * 1]) xs))
      else Ok (map (fun x => 1 :: (x - a0) * 1
                      :: polyval_loop x (combine ar (tl beta)) ((x - a0) * 1) 1) xs)
  end.

(* orthopoly.py:294-337.  The parameter a is an int or a float; only the
   entries with n >= 1 call [prod], hence [reduce].  [entry a n] stands for the
   value computed in the branch that applies. *)
Definition mm_log (v : python) (entry : R -> nat -> R) (N : nat) (a : R) : result (list R) :=
  if Rle_dec a (-1) then Raise ValueError else
  let* _ := if Nat.ltb 1 N then py2_builtin v else Ok tt in
  Ok (match N with
      | O => []
      | S n => 1 / (a + 1) ^ 2 :: map (entry a) (seq 1 n)
      end).
End Jacobi.

(* orthopoly.py:340-388.  One row of sig: entries outside the inner loop's
   range stay zero. *)
Definition sig_row (N n : nat) (al bl : R) (alpham betam : list R) (r1 r2 : list R) : list R :=
  map (fun m => if (Nat.leb (n - 1) m && Nat.ltb m (2 * N - n + 1))%bool
                then el r1 (m + 1) - (al - el alpham m) * el r1 m - bl * el r2 m
                     + el betam m * el r1 (m - 1)
                else 0) (seq 0 (2 * N)).

(* The outer loop over n = 2 .. N: the arrays built so far (last entry last)
   and the two latest rows of sig. *)
Record cheb := { c_alpha : list R; c_beta : list R; c_normsq : list R;
                 c_row : list R; c_prev : list R }.

Definition cheb_step (N : nat) (alpham betam : list R) (s : cheb) (n : nat) : cheb :=
  let r := sig_row N n (el (c_alpha s) (n - 2)) (el (c_beta s) (n - 2)) alpham betam
                   (c_row s) (c_prev s) in
  let p := c_row s in
  {| c_alpha := c_alpha s ++ [el alpham (n - 1) + el r n / el r (n - 1)
                              - el p (n - 1) / el p (n - 2)];
     c_beta := c_beta s ++ [el r (n - 1) / el p (n - 2)];
     c_normsq := c_normsq s ++ [el r (n - 1)];
     c_row := r; c_prev := p |}.

(* The largest index of alpham and betam that the loops use. *)
Definition cheb_reads (N : nat) : nat := if Nat.ltb 1 N then 2 * N - 1 else 1.

Definition mod_chebyshev (N : Z) (mom alpham betam : list R)
  : result (list R * list R * list R) :=
  if (N <? 1)%Z then Raise ValueError else
  let N := Nat.min (Z.to_nat N) (Nat.div (length mom) 2) in
  if Nat.eqb N 0 then Raise IndexError else
  let* am0 := py_get alpham 0 in
  let* mom1 := py_get mom 1 in
  let* mom0 := py_get mom 0 in
  if negb (Nat.eqb (length mom) (2 * N)) then Raise ValueError else
  if (Nat.ltb (length alpham) (cheb_reads N)
      || (Nat.ltb 1 N && Nat.ltb (length betam) (cheb_reads N)))%bool
  then Raise IndexError else
  let s := fold_left (cheb_step N alpham betam) (seq 2 (N - 1))
             {| c_alpha := [am0 + mom1 / mom0]; c_beta := [mom0]; c_normsq := [mom0];
                c_row := mom; c_prev := repeat 0 (2 * N) |} in
  Ok (c_alpha s, c_beta s, c_normsq s).

(* orthopoly.py:391-414 *)
Definition rec_jaclog (gamma power2 : R -> R) (v : python) (entry : R -> nat -> R) (N : Z) (a : R)
  : result (list R * list R) :=
  let* r := rec_jacobi01 gamma power2 (2 * N) 0 0 in
  match r with
  | Numbers _ _ => Raise IndexError
  | Arrays alphaj betaj =>
      let* mom := mm_log v entry (Z.to_nat (2 * N)) a in
      let* (alpha, beta, _) := mod_chebyshev N mom alphaj betaj in
      Ok (alpha, beta)
  end.
