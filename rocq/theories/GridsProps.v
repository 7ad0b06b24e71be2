(* C39-C49, C101: momentum grids, table search and interpolation.
   incr g (GridsProofs): the list is strictly increasing. *)
From Coq Require Import Reals Lra Psatz.
From Verif Require Import Base GridsModel GridsProofs.
Open Scope R_scope.

(* C39 *)
Theorem C39_linear_grid : forall env_max env_n n mx, (2 <= n)%nat -> 0 < mx ->
  let g := linear_grid env_max env_n (Some n) (Some mx) in
  length g = n /\ rnth g 0 = 0 /\ rnth g (n - 1) = mx /\ incr g /\
  (forall i, (S i < n)%nat -> rnth g (S i) - rnth g i = mx / INR (n - 1)).
Proof.
  intros em en n mx Hn Hm. unfold linear_grid, or_default, or_default_n.
  destruct (Req_EM_T mx 0); [lra|]. destruct n; [lia|]. now apply linear_grid_props.
Qed.
Print Assumptions C39_linear_grid.
Theorem C39_defaults_used_when_missing : forall env_max env_n,
  linear_grid env_max env_n None None = linear_grid env_max env_n (Some env_n) (Some env_max) \/ env_n = O \/ env_max = 0.
Proof.
  intros em en. unfold linear_grid, or_default, or_default_n.
  destruct (Req_EM_T em 0); [now right; right|]. destruct en; [now right; left|now left].
Qed.
Print Assumptions C39_defaults_used_when_missing.
Example C39_ex : rnth (linear_grid 20 51 (Some 3%nat) (Some 10)) 1 = 5.
Proof. unfold linear_grid, or_default, or_default_n. destruct (Req_EM_T 10 0); [lra|]. unfold rnth. cbn. field. Qed.

(* C40 *)
Theorem C40_log_grid : forall env_max env_n n mx, (2 <= n)%nat -> 0 < mx ->
  exists g, log_grid env_max env_n (Some n) (Some mx) = Some g /\
  length g = n /\ rnth g 0 = 0 /\ rnth g (n - 1) = mx /\ incr g /\
  (forall i, (S (S i) < n)%nat -> rnth g (S (S i)) - rnth g (S i) = 12 / 10 * (rnth g (S i) - rnth g i)).
Proof.
  intros em en n mx Hn Hm. destruct (log_grid_props mx n Hn Hm) as (g & E & P). exists g. split; [|exact P].
  rewrite <- E. unfold log_grid, or_default, or_default_n. destruct (Req_EM_T mx 0); [lra|]. destruct n; [lia|reflexivity].
Qed.
Print Assumptions C40_log_grid.
Example C40_ex : (2 <= 51)%nat /\ 0 < 20. Proof. split; [lia|lra]. Qed.

(* C41: `fuel` bounds the number of executions of the while loop *)
Theorem C41_heuristic_grid_terminates : forall second M tau aT b c,
  0 < second -> 0 < M -> 0 < tau -> 0 < aT -> 0 < b -> 0 < c ->
  exists N g, (forall fuel, (N <= fuel)%nat -> heuristic_grid second M tau aT b c fuel = Some g) /\
    incr g /\ rnth g 0 = 0 /\ last g 0 = heur_first second M tau aT b /\ 0 < last g 0 /\ (2 <= length g)%nat.
Proof.
  intros s M tau aT b c Hs HM Ht Ha Hb Hc.
  destruct (heuristic_terminates s M tau aT b c Hs HM Ht Ha Hb Hc) as (N & g & A & B & C & D & E).
  exists N, g. split; [exact A|]. split; [exact B|]. split; [exact C|]. split; [exact D|]. split; [|exact E].
  rewrite D. now apply heur_first_pos.
Qed.
Print Assumptions C41_heuristic_grid_terminates.
Theorem C41_successive_points : forall M aT c g, 0 < M -> 0 < aT -> 0 < c -> 0 < g ->
  heur_next M aT c g = Rmax (g - aT * (1 + sqrt (1 + 2 * g * c ^ 2 / aT)) / (c * sqrt c)) 0.
Proof. exact heur_step. Qed.
Print Assumptions C41_successive_points.
Example C41_ex : 0 < heur_first 1 33 100 1 (8/10).
Proof. apply heur_first_pos; lra. Qed.

(* C42 *)
Theorem C42_linear_between_neighbours_refuted :
  exists f g x, incr g /\ length f = length g /\ rnth g 0 < x < rnth g 1 /\
  ~ (Rmin (rnth f 0) (rnth f 1) <= linear_interpolation f g x <= Rmax (rnth f 0) (rnth f 1)).
Proof.
  exists [0; 0; 1], [0; 1; 2], (1/2).
  assert (HI : incr [0; 1; 2]).
  { intros i j Hij Hj. cbn in Hj. unfold rnth. destruct j as [|[|[|j]]]; try lia; destruct i as [|[|i]]; try lia; cbn; lra. }
  split; [exact HI|]. split; [reflexivity|]. split; [unfold rnth; cbn; lra|].
  rewrite (lin_cell [0;0;1] [0;1;2] 0) by (auto; unfold rnth; cbn; (lia || lra)).
  unfold rnth. cbn. unfold Rmin, Rmax. destruct (Rle_dec 0 0); lra.
Qed.
Print Assumptions C42_linear_between_neighbours_refuted.
Theorem C42_linear_at_nodes : forall f g i, incr g -> (i < length g)%nat ->
  linear_interpolation f g (rnth g i) = rnth f i.
Proof. exact lin_node. Qed.
Print Assumptions C42_linear_at_nodes.
(* what the code does between nodes i and i+1: the line through nodes i+1, i+2 *)
Theorem C42_linear_extrapolates_next_cell : forall f g i x, incr g -> (S (S i) < length g)%nat ->
  rnth g i < x < rnth g (S i) ->
  linear_interpolation f g x =
  rnth f (S i) + (rnth f (S (S i)) - rnth f (S i)) / (rnth g (S (S i)) - rnth g (S i)) * (x - rnth g (S i)).
Proof.
  intros f g i x Hg Hi Hx. rewrite (lin_cell f g i x) by auto.
  pose proof (Hg (S i) (S (S i)) ltac:(lia) Hi). field. lra.
Qed.
Print Assumptions C42_linear_extrapolates_next_cell.

(* C43 *)
Theorem C43_affine_exact_up_to_last_cell : forall f g a b x, incr g -> length f = length g ->
  (forall i, (i < length g)%nat -> rnth f i = a + b * rnth g i) ->
  (2 <= length g)%nat -> x <= rnth g (length g - 2) -> linear_interpolation f g x = a + b * x.
Proof. exact lin_affine. Qed.
Print Assumptions C43_affine_exact_up_to_last_cell.
Theorem C43_affine_exact_refuted : exists f g a b x, incr g /\ length f = length g /\
  (forall i, (i < length g)%nat -> rnth f i = a + b * rnth g i) /\
  rnth g 0 <= x <= rnth g (length g - 1) /\ linear_interpolation f g x <> a + b * x.
Proof.
  exists [0; 1], [0; 1], 0, 1, (1/2).
  assert (HI : incr [0; 1]).
  { intros i j Hij Hj. cbn in Hj. unfold rnth. destruct j as [|[|j]]; try lia; destruct i as [|i]; try lia; cbn; lra. }
  split; [exact HI|]. split; [reflexivity|]. split.
  { intros i Hi. cbn in Hi. unfold rnth. destruct i as [|[|i]]; try lia; cbn; lra. }
  split; [unfold rnth; cbn; lra|].
  rewrite (lin_last_cell [0;1] [0;1] 0) by (auto; unfold rnth; cbn; (lia || lra)). unfold rnth. cbn. lra.
Qed.
Print Assumptions C43_affine_exact_refuted.
(* in the last cell the value is constant *)
Theorem C43_last_cell_constant : forall f g i x, incr g -> (S (S i) = length g)%nat ->
  rnth g i < x <= rnth g (S i) -> linear_interpolation f g x = rnth f (S i).
Proof. exact lin_last_cell. Qed.
Print Assumptions C43_last_cell_constant.
Example C43_ex : linear_interpolation [1; 3; 5] [0; 1; 2] (1/2) = 1 + 2 * (1/2).
Proof.
  apply (lin_affine [1;3;5] [0;1;2] 1 2).
  - intros i j Hij Hj. cbn in Hj. unfold rnth. destruct j as [|[|[|j]]]; try lia; destruct i as [|[|i]]; try lia; cbn; lra.
  - reflexivity.
  - intros i Hi. cbn in Hi. unfold rnth. destruct i as [|[|[|i]]]; try lia; cbn; lra.
  - cbn. lia.
  - unfold rnth. cbn. lra.
Qed.

(* C44. uniform g g0 h: node i is g0 + i h *)
Theorem C44_cubic_at_nodes : forall f g i, incr g -> (i < length g)%nat ->
  cubic_interpolation f g (rnth g i) = rnth f i.
Proof. exact cubic_node. Qed.
Print Assumptions C44_cubic_at_nodes.
Theorem C44_cubic_affine : forall f g g0 h a b x, 0 < h -> uniform g g0 h -> (2 <= length g)%nat ->
  (forall i, (i < length g)%nat -> rnth f i = a + b * rnth g i) ->
  x <= rnth g (length g - 2) -> cubic_interpolation f g x = a + b * x.
Proof. exact cubic_affine. Qed.
Print Assumptions C44_cubic_affine.
Theorem C44_cubic_quadratic : forall f g g0 h a b c x, 0 < h -> uniform g g0 h -> (4 <= length g)%nat ->
  (forall i, (i < length g)%nat -> rnth f i = a + b * rnth g i + c * rnth g i ^ 2) ->
  rnth g 0 < x <= rnth g (length g - 3) -> cubic_interpolation f g x = a + b * x + c * x ^ 2.
Proof. exact cubic_quadratic. Qed.
Print Assumptions C44_cubic_quadratic.
Theorem C44_cubic_continuous_refuted : exists f g i, incr g /\ length f = length g /\
  (0 < i)%nat /\ (S i < length g)%nat /\ uniform g 0 1 /\
  exists eps, 0 < eps /\ forall delta, 0 < delta -> exists x, Rabs (x - rnth g i) < delta /\
    eps <= Rabs (cubic_interpolation f g x - cubic_interpolation f g (rnth g i)).
Proof.
  exists cub_tab, cub_grid, 1%nat. split; [exact cub_grid_incr|]. split; [reflexivity|].
  split; [lia|]. split; [cbn; lia|]. split.
  - intros i Hi. cbn in Hi. unfold rnth, cub_grid. destruct i as [|[|[|[|[|[|i]]]]]]; try lia; cbn; lra.
  - exists 1. split; [lra|]. exact cubic_discontinuous.
Qed.
Print Assumptions C44_cubic_continuous_refuted.
Example C44_ex : uniform cub_grid 0 1 /\ (4 <= length cub_grid)%nat.
Proof.
  split; [|cbn; lia]. intros i Hi. cbn in Hi. unfold rnth, cub_grid. destruct i as [|[|[|[|[|[|i]]]]]]; try lia; cbn; lra.
Qed.

(* C45: both searches terminate and are fully characterised *)
Theorem C45_cpp_search : forall grid x, incr grid -> (0 < length grid)%nat ->
  exists r, (forall fuel, (length grid <= fuel)%nat -> cpp_binary_find fuel grid x = Some r) /\
  (forall i, (i < length grid)%nat -> (r = (Z.of_nat i, Z.of_nat i) <-> rnth grid i = x)) /\
  (forall i, (S i < length grid)%nat -> (r = (Z.of_nat i, Z.of_nat i + 1)%Z <-> rnth grid i < x < rnth grid (S i))) /\
  (r = (Z.of_nat (length grid) - 1, -1)%Z <-> rnth grid (length grid - 1) < x) /\
  (r = (-1, 0)%Z <-> x < rnth grid 0).
Proof.
  intros grid x Hg Hn. destruct (cpp_find_ok grid x (length grid) Hg Hn ltac:(lia)) as (r & Hr & Hs).
  exists r. split.
  { intros fuel Hf. destruct (cpp_find_ok grid x fuel Hg Hn Hf) as (r' & Hr' & Hs').
    rewrite Hr'. f_equal. exact (find_spec_unique grid x r' r Hg Hn Hs' Hs). }
  pose proof (fun q => find_spec_unique grid x r q Hg Hn Hs) as U.
  split; [|split; [|split]].
  - intros i Hi. split.
    + intros ->. destruct Hs as [(k & K1 & K2 & K3)|[(k & K1 & K2 & K3)|[(K1 & K3)|(K1 & K3)]]]; injection K3 as E1 E2; try lia.
      assert (i = k) as -> by lia. exact K2.
    + intros E. apply U. left. exists i. auto.
  - intros i Hi. split.
    + intros ->. destruct Hs as [(k & K1 & K2 & K3)|[(k & K1 & K2 & K3)|[(K1 & K3)|(K1 & K3)]]]; injection K3 as E1 E2; try lia.
      assert (i = k) as -> by lia. exact K2.
    + intros E. apply U. right; left. exists i. auto.
  - split.
    + intros ->. destruct Hs as [(k & K1 & K2 & K3)|[(k & K1 & K2 & K3)|[(K1 & K3)|(K1 & K3)]]]; first [exact K1 | injection K3 as E1 E2; lia].
    + intros E. apply U. right; right; left. auto.
  - split.
    + intros ->. destruct Hs as [(k & K1 & K2 & K3)|[(k & K1 & K2 & K3)|[(K1 & K3)|(K1 & K3)]]]; first [exact K1 | injection K3 as E1 E2; lia].
    + intros E. apply U. right; right; right. auto.
Qed.
Print Assumptions C45_cpp_search.
Theorem C45_python_search_agrees : forall grid x, incr grid -> (0 < length grid)%nat ->
  exists r, py_binary_find grid x = Ok r /\ cpp_binary_find (length grid) grid x = Some r.
Proof.
  intros grid x Hg Hn. destruct (cpp_find_ok grid x (length grid) Hg Hn ltac:(lia)) as (r & -> & Hs).
  destruct (py_find_ok grid x Hg Hn) as (r' & -> & Hs'). exists r.
  now rewrite (find_spec_unique grid x r' r Hg Hn Hs' Hs).
Qed.
Print Assumptions C45_python_search_agrees.
Example C45_ex : incr cub_grid /\ rnth cub_grid 2 < 5/2 < rnth cub_grid 3.
Proof. split; [exact cub_grid_incr|unfold rnth; cbn; lra]. Qed.

(* C46: alpha = 1/T', beta = -mu/T' *)
Theorem C46_equilibrium_reproduced : forall grid dist p m eta T alpha beta,
  incr grid -> 0 <= rnth grid 0 -> rnth grid 0 <= p <= rnth grid (length grid - 1) -> (0 < length grid)%nat ->
  (forall i, (i < length grid)%nat -> rnth dist i = 1 / (exp (alpha * energy (rnth grid i) m + beta) + eta) /\
                                      exp (alpha * energy (rnth grid i) m + beta) + eta <> 0) ->
  distribution_interpolation grid dist p m eta T false = Ok (1 / (exp (alpha * energy p m + beta) + eta)).
Proof. exact interp_equilibrium. Qed.
Print Assumptions C46_equilibrium_reproduced.
Example C46_ex : forall m, (forall i, (i < length cub_grid)%nat ->
  rnth (map (fun q => 1 / (exp (2 * energy q m + 0) + 1)) cub_grid) i = 1 / (exp (2 * energy (rnth cub_grid i) m + 0) + 1) /\
  exp (2 * energy (rnth cub_grid i) m + 0) + 1 <> 0).
Proof.
  intros m i Hi. split.
  - unfold rnth. rewrite (nth_indep _ 0 (1 / (exp (2 * energy 0 m + 0) + 1))) by (now rewrite map_length).
    now rewrite (map_nth (fun q => 1 / (exp (2 * energy q m + 0) + 1))).
  - pose proof (exp_pos (2 * energy (rnth cub_grid i) m + 0)). lra.
Qed.

(* C47 *)
Theorem C47_between_neighbours : forall grid dist p m eta T i,
  incr grid -> 0 <= rnth grid 0 -> (S i < length grid)%nat -> rnth grid i < p < rnth grid (S i) ->
  (eta = 1 /\ 0 < rnth dist i < 1 /\ 0 < rnth dist (S i) < 1) \/ (eta = -1 /\ 0 < rnth dist i /\ 0 < rnth dist (S i)) ->
  exists v, distribution_interpolation grid dist p m eta T false = Ok v /\
    Rmin (rnth dist i) (rnth dist (S i)) <= v <= Rmax (rnth dist i) (rnth dist (S i)).
Proof.
  intros grid dist p m eta T i Hg H0 Hi Hp He. eexists. split; [exact (interp_between grid dist p m eta T i Hg Hi Hp)|].
  assert (0 <= rnth grid i) by (pose proof (incr_le grid 0 i Hg ltac:(lia) ltac:(lia)); lra).
  apply cell_between.
  - split; apply energy_incr; lra.
  - destruct He as [(-> & A & B)|(-> & A & B)]; [now apply occupation_fermion|now apply occupation_boson].
  - destruct He as [(-> & A & B)|(-> & A & B)]; [now apply occupation_fermion|now apply occupation_boson].
Qed.
Print Assumptions C47_between_neighbours.
Theorem C47_at_nodes : forall grid dist m eta T i, incr grid -> (i < length grid)%nat ->
  distribution_interpolation grid dist (rnth grid i) m eta T false = Ok (rnth dist i).
Proof. exact interp_node. Qed.
Print Assumptions C47_at_nodes.
Example C47_ex : (1 : R) = 1 /\ 0 < rnth [1/2; 1/3] 0 < 1 /\ 0 < rnth [1/2; 1/3] 1 < 1.
Proof. unfold rnth. cbn. lra. Qed.

(* C48 *)
Theorem C48_above_grid : forall grid dist p m eta T, incr grid -> (0 < length grid)%nat ->
  rnth grid (length grid - 1) < p ->
  distribution_interpolation grid dist p m eta T false =
  Ok (rnth dist (length grid - 1) * exp ((energy (rnth grid (length grid - 1)) m - energy p m) / T)).
Proof. exact interp_above. Qed.
Print Assumptions C48_above_grid.
Theorem C48_above_grid_shape : forall grid dist p q m eta T v w, incr grid -> (0 < length grid)%nat ->
  0 < T -> 0 <= rnth grid 0 -> 0 <= rnth dist (length grid - 1) ->
  rnth grid (length grid - 1) < p -> p <= q ->
  distribution_interpolation grid dist p m eta T false = Ok v ->
  distribution_interpolation grid dist q m eta T false = Ok w ->
  0 <= w <= v /\ v <= rnth dist (length grid - 1).
Proof.
  intros grid dist p q m eta T v w Hg Hn HT H0 Hd Hp Hq HV HW.
  rewrite interp_above in HV by auto. rewrite interp_above in HW by (auto; lra).
  injection HV as <-. injection HW as <-.
  apply above_monotone; auto; try lra. pose proof (incr_le grid 0 (length grid - 1) Hg ltac:(lia) ltac:(lia)). lra.
Qed.
Print Assumptions C48_above_grid_shape.
Theorem C48_above_grid_continuous : forall grid dist m eta T, incr grid -> (0 < length grid)%nat -> 0 < T ->
  forall eps, 0 < eps -> exists delta, 0 < delta /\
  forall p v, rnth grid (length grid - 1) < p < rnth grid (length grid - 1) + delta ->
  distribution_interpolation grid dist p m eta T false = Ok v -> Rabs (v - rnth dist (length grid - 1)) < eps.
Proof.
  intros grid dist m eta T Hg Hn HT eps He.
  destruct (above_continuous m T (rnth dist (length grid - 1)) (rnth grid (length grid - 1)) HT eps He) as (d & D1 & D2).
  exists d. split; [exact D1|]. intros p v Hp HV. rewrite interp_above in HV by (auto; lra). injection HV as <-. now apply D2.
Qed.
Print Assumptions C48_above_grid_continuous.
Theorem C48_below_grid : forall grid dist p m eta T, incr grid -> (0 < length grid)%nat -> p < rnth grid 0 ->
  distribution_interpolation grid dist p m eta T false = Raise RuntimeError.
Proof. exact interp_below. Qed.
Print Assumptions C48_below_grid.
Theorem C48_equilibrium_ignores_table : forall grid dist grid' dist' p m eta T,
  distribution_interpolation grid dist p m eta T true = distribution_interpolation grid' dist' p m eta T true /\
  distribution_interpolation grid dist p m eta T true = Ok (1 / (exp (energy p m / T) + eta)).
Proof. intros. split; reflexivity. Qed.
Print Assumptions C48_equilibrium_ignores_table.
Example C48_ex : rnth cub_grid (length cub_grid - 1) < 6 /\ 0 <= rnth cub_tab (length cub_grid - 1).
Proof. unfold rnth. cbn. lra. Qed.

(* C49 *)
Theorem C49_degenerate_fermion_refuted : forall grid dist p m T i,
  incr grid -> (S i < length grid)%nat -> rnth grid i < p < rnth grid (S i) ->
  rnth dist i = 1 -> rnth dist (S i) = 1 ->
  distribution_interpolation grid dist p m 1 T false = Ok 0.
Proof.
  intros grid dist p m T i Hg Hi Hp H1 H2. rewrite (interp_between grid dist p m 1 T i) by auto.
  now rewrite H1, H2, cell_degenerate.
Qed.
Print Assumptions C49_degenerate_fermion_refuted.
Example C49_ex : rnth [1; 1; 0; 0; 0; 0] 0 = 1 /\ rnth [1; 1; 0; 0; 0; 0] 1 = 1 /\ rnth cub_grid 0 < 1/2 < rnth cub_grid 1.
Proof. unfold rnth. cbn. lra. Qed.

(* C101: the Python look-up and the C++ look-up compute the same function *)
Theorem C101_python_and_cpp_lookup_agree : forall grid dist p m eta T ie,
  incr grid -> (0 < length grid)%nat -> length dist = length grid ->
  py_interp grid dist (rnth grid (length grid - 1)) p m eta T ie =
  match distribution_interpolation grid dist p m eta T ie with
  | Raise RuntimeError => Raise ValueError
  | r => r
  end.
Proof. exact py_interp_agrees. Qed.
Print Assumptions C101_python_and_cpp_lookup_agree.
Example C101_ex : incr cub_grid /\ (0 < length cub_grid)%nat /\ length cub_tab = length cub_grid.
Proof. split; [exact cub_grid_incr|split; [cbn; lia|reflexivity]]. Qed.
