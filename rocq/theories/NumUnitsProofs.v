(* Proofs for numericalunits: every expression is a rational times powers of pi
   and of the base units; the normal forms are computed and compared. *)
From Coq Require Import Reals QArith Qreals List String ZArith Lra Lia Bool.
From Verif Require Import NumUnitsModel NumUnitsSpec WidthProofs.
Import ListNotations.

Record nform := mknf { n_q : Q; n_pi : Z; n_d : dim }.

Definition dadd (a b : dim) := mkdim (d_m a + d_m b) (d_kg a + d_kg b) (d_s a + d_s b) (d_C a + d_C b) (d_K a + d_K b).
Definition dopp (a : dim) := mkdim (- d_m a) (- d_kg a) (- d_s a) (- d_C a) (- d_K a).
Definition d0 := mkdim 0 0 0 0 0.

Open Scope R_scope.
Definition nval (b : bases) (n : nform) : R := Q2R (n_q n) * powerRZ PI (n_pi n) * dval b (n_d n).

Definition nmul (a b : nform) := mknf (Qred (n_q a * n_q b)) (n_pi a + n_pi b) (dadd (n_d a) (n_d b)).
Definition ninv (a : nform) := mknf (/ n_q a) (- n_pi a) (dopp (n_d a)).
Fixpoint npow (a : nform) (n : nat) := match n with O => mknf 1 0 d0 | S k => nmul a (npow a k) end.
Definition npos (a : nform) : bool := match Qnum (n_q a) with Zpos _ => true | _ => false end.
Definition guard (a : nform) := if npos a then Some a else None.

Fixpoint nf (g : env nform) (e : expr) : option nform :=
  match e with
  | ENum q => guard (mknf q 0 d0)
  | EPi => Some (mknf 1 1 d0)
  | EVar x => lookup x g
  | EMul a b => match nf g a, nf g b with Some u, Some v => guard (nmul u v) | _, _ => None end
  | EDiv a b => match nf g a, nf g b with Some u, Some v => guard (nmul u (ninv v)) | _, _ => None end
  | EPow a n => match nf g a with Some u => guard (npow u n) | None => None end
  end.
Fixpoint nexec (g : env nform) (p : list (string * expr)) : option (env nform) :=
  match p with
  | [] => Some g
  | (x, e) :: p' => match nf g e with Some v => nexec ((x, v) :: g) p' | None => None end
  end.

Lemma dval_pos b d : bpos b -> 0 < dval b d.
Proof. intros (A & B & C & D & E). unfold dval. repeat apply Rmult_lt_0_compat; apply powerRZ_lt; assumption. Qed.
Lemma npos_pos a : npos a = true -> 0 < Q2R (n_q a).
Proof.
  unfold npos, Q2R. destruct (n_q a) as [z p]; cbn. destruct z; try discriminate. intros _.
  apply Rmult_lt_0_compat; [apply IZR_lt; lia|apply Rinv_0_lt_compat, IZR_lt; lia].
Qed.
Lemma nval_pos b a : bpos b -> npos a = true -> 0 < nval b a.
Proof.
  intros Hb Ha. unfold nval. apply Rmult_lt_0_compat; [apply Rmult_lt_0_compat|now apply dval_pos].
  - now apply npos_pos.
  - apply powerRZ_lt, PI_RGT_0.
Qed.
Lemma dval_add b x y : bpos b -> dval b (dadd x y) = dval b x * dval b y.
Proof. intros (A & B & C & D & E). unfold dval, dadd; cbn [d_m d_kg d_s d_C d_K]. rewrite !powerRZ_add by lra. ring. Qed.
Lemma nval_mul b x y : bpos b -> nval b (nmul x y) = nval b x * nval b y.
Proof.
  intros Hb. unfold nval, nmul; cbn [n_q n_pi n_d]. rewrite (Qeq_eqR _ _ (Qred_correct _)), Q2R_mult, dval_add by assumption.
  rewrite powerRZ_add by (apply Rgt_not_eq, PI_RGT_0). ring.
Qed.
Lemma nval_one b : nval b (mknf 1 0 d0) = 1.
Proof. unfold nval, dval; cbn. unfold Q2R; cbn. field. Qed.
Lemma npow_val b x n : bpos b -> nval b (npow x n) = nval b x ^ n.
Proof. intros Hb. induction n as [|n IH]; cbn [npow]; [apply nval_one|]. rewrite nval_mul, IH by assumption. reflexivity. Qed.
Lemma nval_inv b x : bpos b -> npos x = true -> nval b (ninv x) = / nval b x.
Proof.
  intros Hb Hx. pose proof (nval_pos b x Hb Hx) as P.
  apply (Rmult_eq_reg_r (nval b x)); [|lra]. rewrite Rinv_l by lra.
  pose proof (npos_pos _ Hx) as Q.
  unfold nval, ninv; cbn [n_q n_pi n_d]. rewrite Q2R_inv.
  2:{ intros E. apply Qeq_eqR in E. rewrite E in Q. unfold Q2R in Q; cbn in Q. lra. }
  assert (E1 : powerRZ PI (- n_pi x) * powerRZ PI (n_pi x) = 1).
  { rewrite <- powerRZ_add by (apply Rgt_not_eq, PI_RGT_0). rewrite Z.add_opp_diag_l. reflexivity. }
  assert (E2 : dval b (dopp (n_d x)) * dval b (n_d x) = 1).
  { rewrite <- dval_add by assumption. unfold dadd, dopp, dval; cbn [d_m d_kg d_s d_C d_K]. rewrite !Z.add_opp_diag_l. cbn. ring. }
  transitivity (/ Q2R (n_q x) * Q2R (n_q x) * (powerRZ PI (- n_pi x) * powerRZ PI (n_pi x)) * (dval b (dopp (n_d x)) * dval b (n_d x))); [ring|].
  rewrite E1, E2. field. lra.
Qed.

Definition erel (b : bases) (g : env R) (h : env nform) :=
  List.Forall2 (fun p q => fst p = fst q /\ snd p = nval b (snd q) /\ npos (snd q) = true) g h.
Lemma erel_lookup b g h x n : erel b g h -> lookup x h = Some n -> lookup x g = Some (nval b n) /\ npos n = true.
Proof.
  intros H. induction H as [|[y v] [z w] g h (A & B & C) _ IH]; cbn in *; [discriminate|]. subst.
  destruct (String.eqb x z); [|exact IH]. intros E. injection E as <-. auto.
Qed.
Lemma guard_some a n : guard a = Some n -> a = n /\ npos n = true.
Proof. unfold guard. destruct (npos a) eqn:E; [|discriminate]. intros H. injection H as <-. auto. Qed.
Lemma nf_sound b g h e : bpos b -> erel b g h -> forall n, nf h e = Some n -> eval g e = Some (nval b n) /\ npos n = true.
Proof.
  intros Hb Hr. induction e as [q| |x|e1 IH1 e2 IH2|e1 IH1 e2 IH2|e1 IH1 k]; cbn [nf eval]; intros n E.
  - apply guard_some in E as [<- P]. split; [|exact P]. unfold nval, dval; cbn. f_equal. ring.
  - injection E as <-. split; [|reflexivity]. unfold nval, dval, Q2R; cbn -[PI]. f_equal. change (Pos.to_nat 1) with 1%nat. field.
  - now apply (erel_lookup b g h).
  - destruct (nf h e1) as [u|]; [|discriminate]. destruct (nf h e2) as [v|]; [|discriminate].
    apply guard_some in E as [<- P]. destruct (IH1 _ eq_refl) as [-> _], (IH2 _ eq_refl) as [-> _].
    split; [|exact P]. now rewrite nval_mul.
  - destruct (nf h e1) as [u|]; [|discriminate]. destruct (nf h e2) as [v|]; [|discriminate].
    apply guard_some in E as [<- P]. destruct (IH1 _ eq_refl) as [-> _], (IH2 _ eq_refl) as [-> Pv].
    pose proof (nval_pos b v Hb Pv). split; [|exact P]. destruct (Req_EM_T (nval b v) 0); [lra|].
    now rewrite nval_mul, nval_inv.
  - destruct (nf h e1) as [u|]; [|discriminate]. apply guard_some in E as [<- P].
    destruct (IH1 _ eq_refl) as [-> _]. split; [|exact P]. now rewrite npow_val.
Qed.
Lemma nexec_sound b p : bpos b -> forall g h h', erel b g h -> nexec h p = Some h' -> exists g', exec g p = Some g' /\ erel b g' h'.
Proof.
  intros Hb. induction p as [|[x e] p IH]; cbn [nexec exec]; intros g h h' Hr E.
  - injection E as <-. eauto.
  - destruct (nf h e) as [n|] eqn:En; [|discriminate]. destruct (nf_sound b g h e Hb Hr n En) as [-> P].
    apply (IH _ ((x, n) :: h)); [|exact E]. constructor; [cbn; auto|exact Hr].
Qed.

Local Open Scope string_scope.
Definition base_nf : env nform :=
  [("m", mknf 1 0 (mkdim 1 0 0 0 0)); ("kg", mknf 1 0 (mkdim 0 1 0 0 0)); ("s", mknf 1 0 (mkdim 0 0 1 0 0));
   ("C", mknf 1 0 (mkdim 0 0 0 1 0)); ("K", mknf 1 0 (mkdim 0 0 0 0 1))].
Definition all_nf : option (env nform) :=
  match nexec base_nf derived with Some h => Some (filter (fun p => exported (fst p)) h) | None => None end.
Lemma base_rel b : erel b (base_env b) base_nf.
Proof.
  unfold base_env, base_nf. repeat constructor; cbn [fst snd]; try reflexivity;
    unfold nval, dval, Q2R; cbn -[PI Pos.to_nat]; change (Pos.to_nat 1) with 1%nat; field.
Qed.
Lemma filter_rel b g h : erel b g h -> erel b (filter (fun p => exported (fst p)) g) (filter (fun p => exported (fst p)) h).
Proof.
  intros H. induction H as [|[y v] [z w] g h (A & B & C) _ IH]; cbn [filter]; [constructor|]. cbn [fst] in *. subst y.
  destruct (exported z); [constructor; [cbn; auto|exact IH]|exact IH].
Qed.
Lemma all_sound b h : bpos b -> all_nf = Some h -> exists g, set_derived b = Some g /\ erel b g h.
Proof.
  intros Hb. unfold all_nf, set_derived. destruct (nexec base_nf derived) as [h0|] eqn:E; [|discriminate].
  intros F. injection F as <-. destruct (nexec_sound b derived Hb _ _ _ (base_rel b) E) as (g & -> & Hr).
  eexists; split; [reflexivity|]. now apply filter_rel.
Qed.

(* the table *)
Definition dim_eqb (a b : dim) : bool :=
  (d_m a =? d_m b)%Z && (d_kg a =? d_kg b)%Z && (d_s a =? d_s b)%Z && (d_C a =? d_C b)%Z && (d_K a =? d_K b)%Z.
Lemma dim_eqb_eq a b : dim_eqb a b = true -> a = b.
Proof.
  destruct a, b; unfold dim_eqb; cbn. rewrite !andb_true_iff, !Z.eqb_eq. intros ((((-> & ->) & ->) & ->) & ->). reflexivity.
Qed.
Definition row_ok (h : env nform) (r : row) : bool :=
  match lookup (r_name r) h with
  | Some n => Qeq_bool (n_q n) (r_q r) && (n_pi n =? r_pi r)%Z && dim_eqb (n_d n) (r_dim r)
  | None => false
  end.
Definition table_ok : bool :=
  match all_nf with
  | Some h => forallb (row_ok h) table && forallb (fun p => existsb (fun r => String.eqb (fst p) (r_name r)) table) h
  | None => false
  end.
Lemma table_checked : table_ok = true.
Proof. vm_compute. reflexivity. Qed.
Lemma rows_sound b : bpos b -> exists g, set_derived b = Some g /\
  (forall r, In r table -> lookup (r_name r) g = Some (row_val b r)) /\
  (forall x v, lookup x g = Some v -> exists r, In r table /\ r_name r = x).
Proof.
  intros Hb. pose proof table_checked as H. unfold table_ok in H. destruct all_nf as [h|] eqn:E; [|discriminate].
  apply andb_true_iff in H as [H1 H2]. destruct (all_sound b h Hb E) as (g & -> & Hr).
  exists g. split; [reflexivity|]. split.
  - intros r Hin. rewrite forallb_forall in H1. specialize (H1 r Hin). unfold row_ok in H1.
    destruct (lookup (r_name r) h) as [n|] eqn:L; [|discriminate].
    apply andb_true_iff in H1 as [H1 Hd]. apply andb_true_iff in H1 as [Hq Hp].
    destruct (erel_lookup b g h _ n Hr L) as [-> _]. f_equal. unfold nval, row_val.
    apply Qeq_bool_eq, Qeq_eqR in Hq. apply Z.eqb_eq in Hp. apply dim_eqb_eq in Hd. now rewrite Hq, Hp, Hd.
  - intros x v L. rewrite forallb_forall in H2. clear E H1.
    induction Hr as [|[y u] [z w] g h (A & B & C) _ IH]; cbn [lookup] in L; [discriminate|]. cbn [fst] in A. subst z.
    destruct (String.eqb x y) eqn:Exy.
    + specialize (H2 (y, w) (or_introl eq_refl)). apply existsb_exists in H2 as (r & Hin & Hn).
      apply String.eqb_eq in Hn. apply String.eqb_eq in Exy. cbn [fst] in Hn. exists r. split; congruence.
    + apply IH; [|exact L]. intros p Hp. apply H2. now right.
Qed.

(* formulas *)
Definition agrees (b : bases) (g : env R) := forall r, In r table -> lookup (r_name r) g = Some (row_val b r).
Lemma dval_sub b x y : bpos b -> dval b (mkdim (d_m x - d_m y) (d_kg x - d_kg y) (d_s x - d_s y) (d_C x - d_C y) (d_K x - d_K y))
  = dval b x / dval b y.
Proof.
  intros Hb. pose proof (dval_pos b y Hb). apply (Rmult_eq_reg_r (dval b y)); [|lra]. unfold Rdiv. rewrite Rmult_assoc, Rinv_l, Rmult_1_r by lra.
  rewrite <- dval_add by assumption. unfold dadd; cbn [d_m d_kg d_s d_C d_K]. rewrite !Z.sub_add. now destruct x.
Qed.
Lemma dval_pow b x n : bpos b -> dval b (mkdim (Z.of_nat n * d_m x) (Z.of_nat n * d_kg x) (Z.of_nat n * d_s x) (Z.of_nat n * d_C x) (Z.of_nat n * d_K x))
  = dval b x ^ n.
Proof.
  intros Hb. induction n as [|n IH].
  - unfold dval; cbn. ring.
  - cbn [pow]. rewrite <- IH, <- dval_add by assumption. unfold dadd; cbn [d_m d_kg d_s d_C d_K].
    rewrite Nat2Z.inj_succ, !Z.mul_succ_l. f_equal. f_equal; lia.
Qed.
Lemma dval_one b : dval b one_ = 1.
Proof. unfold dval; cbn. ring. Qed.
Lemma formula_scale f d : has_dim f d -> exists c, forall b g, bpos b -> agrees b g ->
  fval g f = match c with Some x => Some (x * dval b d) | None => None end.
Proof.
  intros H. induction H as [x|r Hr|f1 f2 d _ [c1 H1] _ [c2 H2]|f1 f2 d _ [c1 H1] _ [c2 H2]|f1 f2 d e _ [c1 H1] _ [c2 H2]
                           |f1 f2 d e _ [c1 H1] _ [c2 H2]|f n d _ [c H1]]; cbn [fval].
  - exists (Some x). intros b g Hb Ha. rewrite dval_one. now rewrite Rmult_1_r.
  - exists (Some (Q2R (r_q r) * powerRZ PI (r_pi r))). intros b g Hb Ha. rewrite (Ha r Hr). reflexivity.
  - exists (match c1, c2 with Some u, Some v => Some (u + v) | _, _ => None end). intros b g Hb Ha.
    rewrite (H1 b g Hb Ha), (H2 b g Hb Ha). destruct c1, c2; try reflexivity. f_equal. ring.
  - exists (match c1, c2 with Some u, Some v => Some (u - v) | _, _ => None end). intros b g Hb Ha.
    rewrite (H1 b g Hb Ha), (H2 b g Hb Ha). destruct c1, c2; try reflexivity. f_equal. ring.
  - exists (match c1, c2 with Some u, Some v => Some (u * v) | _, _ => None end). intros b g Hb Ha.
    rewrite (H1 b g Hb Ha), (H2 b g Hb Ha). destruct c1, c2; try reflexivity. f_equal. fold (dadd d e). rewrite dval_add by assumption. ring.
  - exists (match c1, c2 with Some u, Some v => if Req_EM_T v 0 then None else Some (u / v) | _, _ => None end). intros b g Hb Ha.
    rewrite (H1 b g Hb Ha), (H2 b g Hb Ha). destruct c1 as [u|], c2 as [v|]; try reflexivity.
    pose proof (dval_pos b e Hb) as Pe. destruct (Req_EM_T v 0) as [->|Nv].
    + destruct (Req_EM_T (0 * dval b e) 0) as [_|N]; [reflexivity|]. exfalso. apply N. ring.
    + destruct (Req_EM_T (v * dval b e) 0) as [Z|_]; [exfalso; apply Rmult_integral in Z; lra|].
      f_equal. rewrite dval_sub by assumption. field. lra.
  - exists (match c with Some u => Some (u ^ n) | None => None end). intros b g Hb Ha.
    rewrite (H1 b g Hb Ha). destruct c as [u|]; [|reflexivity]. f_equal. rewrite dval_pow by assumption. now rewrite Rpow_mult_distr.
Qed.

(* the relations *)
Fixpoint qpn (q : Q) (n : nat) : Q := match n with O => 1 | S k => Qred (q * qpn q k) end.
Definition pow_lo (k : Z) : Q := match k with Z0 => 1 | Zpos p => qpn (31415 # 10000) (Pos.to_nat p) | Zneg p => / qpn (31416 # 10000) (Pos.to_nat p) end.
Definition pow_hi (k : Z) : Q := match k with Z0 => 1 | Zpos p => qpn (31416 # 10000) (Pos.to_nat p) | Zneg p => / qpn (31415 # 10000) (Pos.to_nat p) end.
Lemma qpn_val q n : Q2R (qpn q n) = Q2R q ^ n.
Proof.
  induction n as [|n IH]; cbn [qpn pow]; [unfold Q2R; cbn; lra|].
  rewrite (Qeq_eqR _ _ (Qred_correct _)), Q2R_mult, IH. reflexivity.
Qed.
Lemma qpn_inv q n : 0 < Q2R q -> Q2R (/ qpn q n) = / Q2R q ^ n.
Proof.
  intros H. rewrite Q2R_inv, qpn_val; [reflexivity|]. intros E. apply Qeq_eqR in E. rewrite qpn_val in E.
  pose proof (pow_lt _ n H) as P. rewrite E in P. unfold Q2R in P; cbn in P. lra.
Qed.
Lemma pi_pow_bounds k : Q2R (pow_lo k) <= powerRZ PI k <= Q2R (pow_hi k).
Proof.
  pose proof PI_bounds as [A B]. assert (Lo : Q2R (31415 # 10000) = 31415 / 10000) by (unfold Q2R; cbn; lra).
  assert (Hi : Q2R (31416 # 10000) = 31416 / 10000) by (unfold Q2R; cbn; lra).
  destruct k as [|p|p]; unfold pow_lo, pow_hi; cbn [powerRZ].
  - unfold Q2R; cbn. lra.
  - rewrite !qpn_val, Lo, Hi. split; apply pow_incr; lra.
  - rewrite !qpn_inv, Lo, Hi by lra. split; apply Rinv_le_contravar; try (apply pow_lt; lra); apply pow_incr; lra.
Qed.
Definition rel_ok (h : env nform) (t : expr * expr * Q) : bool :=
  let '(l, r, tol) := t in
  match nf h l, nf h r with
  | Some u, Some v =>
    let n := nmul u (ninv v) in
    dim_eqb (n_d n) d0 && Qle_bool 0 (n_q n) && Qle_bool (1 - tol) (n_q n * pow_lo (n_pi n)) && Qle_bool (n_q n * pow_hi (n_pi n)) (1 + tol)
  | _, _ => false
  end.
Lemma rel_sound b g h l r tol : bpos b -> erel b g h -> rel_ok h (l, r, tol) = true ->
  exists x y, eval g l = Some x /\ eval g r = Some y /\ 0 < y /\ Rabs (x / y - 1) <= Q2R tol.
Proof.
  intros Hb Hr H. cbn [rel_ok] in H. destruct (nf h l) as [u|] eqn:El; [|discriminate]. destruct (nf h r) as [v|] eqn:Er; [|discriminate].
  destruct (nf_sound b g h l Hb Hr u El) as [Hl _]. destruct (nf_sound b g h r Hb Hr v Er) as [Hv Pv].
  exists (nval b u), (nval b v). pose proof (nval_pos b v Hb Pv) as P. repeat split; try assumption.
  unfold Rdiv. rewrite <- nval_inv, <- nval_mul by assumption. set (n := nmul u (ninv v)) in *. clearbody n.
  rewrite !andb_true_iff in H. destruct H as (((Hd & H0) & H1) & H2). apply dim_eqb_eq in Hd.
  apply Qle_bool_iff, Qle_Rle in H0, H1, H2. rewrite Q2R_minus, Q2R_mult in H1. rewrite Q2R_plus, Q2R_mult in H2.
  unfold nval. rewrite Hd. change d0 with one_. rewrite dval_one, Rmult_1_r.
  pose proof (pi_pow_bounds (n_pi n)) as [Bl Bh].
  assert (E1 : Q2R 1 = 1) by (unfold Q2R; cbn; lra). assert (E0 : Q2R 0 = 0) by (unfold Q2R; cbn; lra). rewrite E1 in H1, H2. rewrite E0 in H0.
  pose proof (Rmult_le_compat_l _ _ _ H0 Bl). pose proof (Rmult_le_compat_l _ _ _ H0 Bh).
  apply Rabs_le. lra.
Qed.
Definition rels_ok (l : list (expr * expr * Q)) : bool := match all_nf with Some h => forallb (rel_ok h) l | None => false end.
Lemma rels_sound rs b g : rels_ok rs = true -> bpos b -> set_derived b = Some g -> forall l r tol, In (l, r, tol) rs ->
  exists x y, eval g l = Some x /\ eval g r = Some y /\ 0 < y /\ Rabs (x / y - 1) <= Q2R tol.
Proof.
  unfold rels_ok. destruct all_nf as [h|] eqn:E; [|discriminate]. intros H Hb Hg l r tol Hin.
  destruct (all_sound b h Hb E) as (g' & Hg' & Hr). rewrite Hg in Hg'. injection Hg' as <-.
  rewrite forallb_forall in H. exact (rel_sound b g h l r tol Hb Hr (H _ Hin)).
Qed.
