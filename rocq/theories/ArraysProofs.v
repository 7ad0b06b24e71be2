From Verif Require Import Base ArraysModel.

Section Generic.
Context {A : Type}.
Variable zero : A.
Notation darr := (darr A).

(* capacity invariant *)
Definition Cap (a : darr) : Prop :=
  (0 <= len a /\ len a <= Z.of_nat (length (store a)) - 2 /\
   Z.of_nat (length (store a)) <= size a /\ 10 <= size a)%Z.

Lemma cap_init : Cap (init zero).
Proof. unfold Cap, init; simpl; lia. Qed.

Lemma np_resize_length old n : length (np_resize zero old n) = n.
Proof.
  unfold np_resize. destruct old; [now rewrite repeat_length|].
  rewrite map_length. apply seq_length.
Qed.

Lemma firstn_map_seq (f : nat -> A) n k : k <= n -> firstn k (map f (seq 0 n)) = map f (seq 0 k).
Proof.
  intros H. rewrite firstn_map. f_equal.
  replace n with (k + (n - k)) by lia. rewrite seq_app, firstn_app, seq_length.
  rewrite Nat.sub_diag. simpl. rewrite app_nil_r. apply firstn_all2. rewrite seq_length; lia.
Qed.

Lemma map_nth_seq_firstn (l : list A) k :
  k <= length l -> map (fun i => nth i l zero) (seq 0 k) = firstn k l.
Proof.
  revert l; induction k as [|k IH]; intros l H; [reflexivity|].
  destruct l as [|x l]; simpl in *; [lia|].
  f_equal. rewrite <- seq_shift, map_map. apply IH. lia.
Qed.

Lemma np_resize_prefix old n k : k <= length old -> k <= n ->
  firstn k (np_resize zero old n) = firstn k old.
Proof.
  intros H1 H2. unfold np_resize. destruct old as [|x t] eqn:E.
  - simpl in H1. replace k with 0 by lia. reflexivity.
  - rewrite firstn_map_seq by lia.
    rewrite <- (map_nth_seq_firstn (x :: t)) by lia.
    apply map_ext_in. intros i Hi. apply in_seq in Hi.
    rewrite Nat.mod_small; [reflexivity | lia].
Qed.

Lemma np_resize_in old n y : In y (np_resize zero old n) -> y = zero \/ In y old.
Proof.
  unfold np_resize. destruct old as [|x t] eqn:E.
  - intros H. apply repeat_spec in H. now left.
  - intros H. apply in_map_iff in H. destruct H as (i & <- & _). right.
    apply nth_In. apply Nat.mod_upper_bound. simpl; lia.
Qed.

Lemma div32 s : (10 <= s -> s + 5 <= 3 * s / 2)%Z.
Proof. intros H. apply Z.div_le_lower_bound; lia. Qed.

Lemma grow_props a : Cap a ->
  Cap (grow zero a) /\ len (grow zero a) = len a /\ data (grow zero a) = data a /\
  (len (grow zero a) < Z.of_nat (length (store (grow zero a))) - 2)%Z.
Proof.
  intros (H0 & H1 & H2 & H3). unfold grow.
  destruct ((len a =? size a) || (len a =? Z.of_nat (length (store a)) - 2))%Z eqn:E.
  - pose proof (div32 _ H3) as Hd. cbn [len store size].
    rewrite np_resize_length.
    assert (Hlen : (Z.of_nat (Z.to_nat (3 * size a / 2)) = 3 * size a / 2)%Z) by lia.
    split; [|split; [reflexivity|split]].
    + unfold Cap. cbn [len store size]. rewrite np_resize_length. lia.
    + unfold data, py_prefix. cbn [len store].
      replace (0 <=? len a)%Z with true by (symmetry; apply Z.leb_le; lia).
      apply np_resize_prefix; lia.
    + lia.
  - apply orb_false_iff in E. destruct E as [E1 E2].
    apply Z.eqb_neq in E2. split; [|split; [reflexivity|split; [reflexivity|lia]]].
    unfold Cap; lia.
Qed.

Lemma py_index_nonneg n i : (0 <= i < Z.of_nat n)%Z -> py_index n i = Some (Z.to_nat i).
Proof.
  intros H. unfold py_index.
  replace ((0 <=? i) && (i <? Z.of_nat n))%Z with true; [reflexivity|].
  symmetry. apply andb_true_iff. split; [apply Z.leb_le | apply Z.ltb_lt]; lia.
Qed.

Lemma data_nonneg (a : darr) : (0 <= len a)%Z -> data a = firstn (Z.to_nat (len a)) (store a).
Proof. intros H. unfold data, py_prefix. now rewrite (proj2 (Z.leb_le _ _) H). Qed.

Lemma append_ok a r : Cap a ->
  exists a', append_row zero a (Some r) = (a', Ok tt) /\ Cap a' /\
             data a' = data a ++ [r] /\ len a' = (len a + 1)%Z.
Proof.
  intros HC. destruct (grow_props a HC) as ((H0 & H1 & H2 & H3) & Hl & Hd & Hs).
  unfold append_row. rewrite py_index_nonneg by lia. cbn zeta.
  eexists. split; [reflexivity|]. split; [|split].
  - unfold Cap. cbn [len store size]. rewrite set_nth_length. lia.
  - rewrite <- Hd. rewrite !data_nonneg by (cbn [len]; lia).
    cbn [len store]. replace (Z.to_nat (len (grow zero a) + 1)) with (S (Z.to_nat (len (grow zero a)))) by lia.
    apply firstn_S_set_nth. lia.
  - cbn [len]. lia.
Qed.

Lemma append_bad a : Cap a ->
  exists a', append_row zero a None = (a', Raise ValueError) /\ Cap a' /\
             data a' = data a /\ len a' = len a.
Proof.
  intros HC. destruct (grow_props a HC) as (HC' & Hl & Hd & Hs).
  unfold append_row. destruct HC' as (H0 & H1 & H2 & H3).
  rewrite py_index_nonneg by lia. eexists. split; [reflexivity|].
  split; [unfold Cap; lia|]. auto.
Qed.

Lemma truncate_ok a : Cap a -> (0 < len a)%Z ->
  exists a', truncate a = (a', Ok tt) /\ Cap a' /\
             data a' = removelast (data a) /\ len a' = (len a - 1)%Z.
Proof.
  intros (H0 & H1 & H2 & H3) Hp. unfold truncate.
  rewrite py_index_nonneg by lia. eexists. split; [reflexivity|]. split; [|split].
  - unfold Cap. cbn [len store size]. rewrite remove_nth_length by lia. lia.
  - rewrite !data_nonneg by (cbn [len]; lia). cbn [len store].
    rewrite firstn_remove_nth by lia.
    replace (Z.to_nat (len a)) with (S (Z.to_nat (len a - 1))) by lia.
    rewrite removelast_firstn by lia. reflexivity.
  - reflexivity.
Qed.

Lemma data_length a : Cap a -> Z.of_nat (length (data a)) = len a.
Proof.
  intros (H0 & H1 & H2 & H3). rewrite data_nonneg by lia. rewrite firstn_length. lia.
Qed.

(* which values the invisible part of the storage can hold when only appends
   have happened *)
Definition Stale (a : darr) : Prop :=
  forall j y, (len a <= Z.of_nat j)%Z -> nth_error (store a) j = Some y ->
              y = zero \/ In y (removelast (data a)).
Definition StoreIn (a : darr) : Prop := forall y, In y (store a) -> y = zero \/ In y (data a).

Lemma storein_init : StoreIn (init zero).
Proof. intros y H. left. apply repeat_spec in H. exact H. Qed.

Lemma storein_grow a : Cap a -> StoreIn a -> StoreIn (grow zero a).
Proof.
  intros HC HS y Hy. destruct (grow_props a HC) as (_ & _ & Hd & _). rewrite Hd.
  unfold grow in Hy. destruct (_ || _)%bool.
  - cbn [store] in Hy. apply np_resize_in in Hy. destruct Hy as [->|Hy]; auto.
  - auto.
Qed.

Lemma append_stale a r a' : Cap a -> StoreIn a ->
  append_row zero a (Some r) = (a', Ok tt) -> StoreIn a' /\ Stale a'.
Proof.
  intros HC HS HA.
  destruct (append_ok a r HC) as (a2 & HA2 & HC2 & Hd2 & Hl2).
  rewrite HA in HA2. injection HA2 as <-.
  pose proof (storein_grow a HC HS) as HG.
  destruct (grow_props a HC) as ((H0 & H1 & H2 & H3) & Hl & Hd & Hs).
  unfold append_row in HA. rewrite py_index_nonneg in HA by lia. cbn zeta in HA.
  injection HA as <-. split.
  - intros y Hy. rewrite Hd2. cbn [store] in Hy. apply set_nth_in in Hy.
    destruct Hy as [->|Hy]; [right; apply in_or_app; right; now left|].
    destruct (HG y Hy) as [->|Hy']; [now left|]. right.
    apply in_or_app. left. now rewrite Hd in Hy'.
  - intros j y Hj Hn. rewrite Hd2, removelast_last. cbn [len store] in Hj, Hn.
    rewrite nth_error_set_nth_ne in Hn by lia.
    destruct (HG y (nth_error_In _ _ Hn)) as [->|Hy']; [now left|]. right. now rewrite Hd in Hy'.
Qed.

End Generic.

(* ---------------- independent list specification ---------------- *)
(* operations on an ordinary list; None = "truncate on an empty list" *)
Inductive lop (A : Type) := LPush (rs : list A) | LPop.
Arguments LPush {A} rs.
Arguments LPop {A}.
Fixpoint lrun {A} (l : list A) (ops : list (lop A)) : option (list A) :=
  match ops with
  | [] => Some l
  | LPush rs :: t => lrun (l ++ rs) t
  | LPop :: t => match l with [] => None | _ => lrun (removelast l) t end
  end.

(* ---------------- Dynamic2DArray ---------------- *)
Section TwoD.
Context {V : Type}.
Variable v0 : V.
Variable w : nat.

(* a row is acceptable iff it has the table's width or is a single value *)
Definition lop_of2d (o : op2d (V:=V)) : option (lop (list V)) :=
  let conv r := if length r =? w then Some r
                else if length r =? 1 then Some (repeat (hd v0 r) w) else None in
  match o with
  | Append2 r => option_map (fun r' => LPush [r']) (conv r)
  | Extend2 rs =>
      if forallb (fun r => match conv r with Some _ => true | None => false end) rs
      then Some (LPush (map (fun r => match conv r with Some r' => r' | None => r end) rs)) else None
  | Truncate2 => Some LPop
  end.
Fixpoint lops_of2d (os : list (op2d (V:=V))) : option (list (lop (list V))) :=
  match os with
  | [] => Some []
  | o :: t => match lop_of2d o, lops_of2d t with Some a, Some b => Some (a :: b) | _, _ => None end
  end.

Definition conv2d (r : list V) : option (list V) :=
  if length r =? w then Some r
  else if length r =? 1 then Some (repeat (hd v0 r) w) else None.
Lemma conv2d_row r : row2d w r = conv2d r.
Proof.
  unfold row2d, conv2d. destruct (length r =? w); [reflexivity|].
  destruct r as [|x [|y r]]; reflexivity.
Qed.

Lemma extend2d_ok rs : forall a, Cap a ->
  forallb (fun r => match conv2d r with Some _ => true | None => false end) rs = true ->
  exists a', extend2d v0 w a rs = (a', Ok tt) /\ Cap a' /\
    data a' = data a ++ map (fun r => match conv2d r with Some r' => r' | None => r end) rs.
Proof.
  induction rs as [|r rs IH]; intros a HC HF; cbn [extend2d map forallb] in *.
  - exists a. rewrite app_nil_r. auto.
  - apply andb_true_iff in HF. destruct HF as [Hr HF].
    unfold append2d. rewrite conv2d_row.
    destruct (conv2d r) as [r'|]; [|discriminate].
    destruct (append_ok (zero2d v0 w) a r' HC) as (a1 & -> & HC1 & Hd1 & _).
    destruct (IH a1 HC1 HF) as (a2 & -> & HC2 & Hd2). exists a2.
    split; [reflexivity|]. split; [exact HC2|]. rewrite Hd2, Hd1, <- app_assoc. reflexivity.
Qed.

Lemma run2d_refines ops : forall a lops l, Cap a ->
  lops_of2d ops = Some lops -> lrun (data a) lops = Some l ->
  exists a', run2d v0 w a ops = (a', Ok tt) /\ Cap a' /\ data a' = l.
Proof.
  induction ops as [|o ops IH]; intros a lops l HC HL HR.
  - cbn in *. injection HL as <-. cbn in HR. injection HR as <-. exists a. auto.
  - cbn [lops_of2d] in HL. destruct (lop_of2d o) as [lo|] eqn:Ho; [|discriminate].
    destruct (lops_of2d ops) as [los|]; [|discriminate]. injection HL as <-.
    cbn [run2d].
    assert (exists a1, step2d v0 w a o = (a1, Ok tt) /\ Cap a1 /\ lrun (data a1) los = Some l) as
      (a1 & -> & HC1 & HR1).
    { destruct o as [r|rs|]; cbn [lop_of2d step2d] in *.
      - fold (conv2d r) in Ho. unfold append2d. rewrite conv2d_row.
        destruct (conv2d r) as [r'|]; [|discriminate]. injection Ho as <-.
        destruct (append_ok (zero2d v0 w) a r' HC) as (a1 & -> & HC1 & Hd1 & _).
        exists a1. rewrite Hd1. auto.
      - fold conv2d in Ho.
        change (forallb _ rs) with (forallb (fun r => match conv2d r with Some _ => true | None => false end) rs) in Ho.
        destruct (forallb _ rs) eqn:HF; [|discriminate]. injection Ho as <-.
        destruct (extend2d_ok rs a HC HF) as (a1 & -> & HC1 & Hd1).
        exists a1. rewrite Hd1. auto.
      - injection Ho as <-. cbn [lrun] in HR.
        assert (0 < len a)%Z.
        { destruct (data a) eqn:E; [discriminate|].
          rewrite <- (data_length a HC), E. simpl; lia. }
        destruct (truncate_ok a HC H) as (a1 & -> & HC1 & Hd1 & _).
        exists a1. rewrite Hd1. destruct (data a); [discriminate|auto]. }
    eapply IH; eauto.
Qed.

Lemma run2d_from_init ops lops l :
  lops_of2d ops = Some lops -> lrun [] lops = Some l ->
  exists a, run2d v0 w (init2d v0 w) ops = (a, Ok tt) /\ Cap a /\ data a = l /\
            py_len a = Ok (Z.of_nat (length l)) /\
            (forall i, getitem2d a i = py_get l i).
Proof.
  intros HL HR.
  destruct (run2d_refines ops (init2d v0 w) lops l) as (a & Ha & HC & Hd); auto.
  - apply cap_init.
  - exists a. split; [exact Ha|]. split; [exact HC|]. split; [exact Hd|]. split.
    + unfold py_len. rewrite <- Hd, (data_length a HC). destruct HC as (H0 & _).
      replace (len a <? 0)%Z with false; [reflexivity|]. symmetry. apply Z.ltb_ge. lia.
    + intros i. unfold getitem2d. now rewrite Hd.
Qed.
End TwoD.

(* ---------------- DynamicRecArray ---------------- *)
Section Rec.
Context {V : Type}.
Variable v0 : V.
Variable columns : list string.
Variable int_of_string : string -> option Z.

(* acceptable records and the row each contributes, stated on its own: the row
   lists, column by column, the value bound to that column *)
Definition lookup_spec (d : list (string * V)) (c : string) (v : V) : Prop :=
  exists pre post, d = pre ++ (c, v) :: post /\ ~ In c (map fst pre).
Inductive row_spec : recarg (V:=V) -> list V -> Prop :=
| row_dict d row : Forall2 (lookup_spec d) columns row -> row_spec (RDict d) row
| row_tuple t : length t = length columns -> row_spec (RTuple t) t.

Inductive rec_lop : oprec (V:=V) -> lop (list V) -> Prop :=
| lr_append r row : row_spec r row -> rec_lop (AppendR r) (LPush [row])
| lr_extend rs rows : Forall2 row_spec rs rows -> rec_lop (ExtendR rs) (LPush rows)
| lr_trunc : rec_lop TruncateR LPop.

Lemma dict_get_spec d c v : lookup_spec d c v -> dict_get d c = Some v.
Proof.
  intros (pre & post & -> & Hn). induction pre as [|[k x] pre IH]; simpl.
  - now rewrite String.eqb_refl.
  - destruct (String.eqb_spec k c) as [->|Hk]; [exfalso; apply Hn; now left|].
    apply IH. intros H. apply Hn. now right.
Qed.

Lemma dict_get_none (d : list (string * V)) c : ~ In c (map fst d) -> dict_get d c = None.
Proof.
  induction d as [|[k x] d IH]; simpl; intros H; [reflexivity|].
  destruct (String.eqb_spec k c) as [->|Hk]; [exfalso; apply H; now left|].
  apply IH. intros H'. apply H. now right.
Qed.

Lemma dict_row_spec cols d row : Forall2 (lookup_spec d) cols row -> dict_row cols d = Ok row.
Proof.
  induction 1 as [|c v cs vs Hc HF IH]; [reflexivity|].
  cbn [dict_row]. rewrite (dict_get_spec _ _ _ Hc), IH. reflexivity.
Qed.

Lemma dict_row_missing cols (d : list (string * V)) c : In c cols -> ~ In c (map fst d) -> dict_row cols d = Raise KeyError.
Proof.
  induction cols as [|k cols IH]; [easy|]. intros [->|Hin] Hn; cbn [dict_row].
  - now rewrite (dict_get_none _ _ Hn).
  - destruct (dict_get d k); [|reflexivity]. rewrite (IH Hin Hn). reflexivity.
Qed.

Lemma appendrec_ok a r row : Cap a -> row_spec r row ->
  exists a', appendrec v0 columns a r = (a', Ok tt) /\ Cap a' /\ data a' = data a ++ [row] /\
             len a' = (len a + 1)%Z.
Proof.
  intros HC Hr.
  assert (length row = length columns /\
          (match r with RDict d => dict_row columns d | RTuple t => Ok t end) = Ok row) as [Hlen He].
  { destruct Hr as [d row Hf|t Ht].
    - split; [symmetry; eapply Forall2_len; eauto|]. now apply dict_row_spec.
    - auto. }
  unfold appendrec. rewrite He, Hlen, Nat.eqb_refl. now apply append_ok.
Qed.

Lemma extendrec_ok rs rows : Forall2 row_spec rs rows -> forall a, Cap a ->
  exists a', extendrec v0 columns a rs = (a', Ok tt) /\ Cap a' /\ data a' = data a ++ rows.
Proof.
  induction 1 as [|r row rs rows Hr HF IH]; intros a HC; cbn [extendrec].
  - exists a. rewrite app_nil_r. auto.
  - destruct (appendrec_ok a r row HC Hr) as (a1 & -> & HC1 & Hd1 & _).
    destruct (IH a1 HC1) as (a2 & -> & HC2 & Hd2). exists a2.
    split; [reflexivity|]. split; [exact HC2|]. rewrite Hd2, Hd1, <- app_assoc. reflexivity.
Qed.

Lemma runrec_refines ops lops : Forall2 rec_lop ops lops -> forall a l, Cap a ->
  lrun (data a) lops = Some l ->
  exists a', runrec v0 columns a ops = (a', Ok tt) /\ Cap a' /\ data a' = l.
Proof.
  induction 1 as [|o lo ops lops Ho HF IH]; intros a l HC HR.
  - cbn in HR. injection HR as <-. exists a. auto.
  - cbn [runrec].
    assert (exists a1, steprec v0 columns a o = (a1, Ok tt) /\ Cap a1 /\ lrun (data a1) lops = Some l) as
      (a1 & -> & HC1 & HR1).
    { destruct Ho as [r row Hr|rs rows Hrs|]; cbn [steprec lrun] in *.
      - destruct (appendrec_ok a r row HC Hr) as (a1 & -> & HC1 & Hd1 & _).
        exists a1. rewrite Hd1. auto.
      - destruct (extendrec_ok rs rows Hrs a HC) as (a1 & -> & HC1 & Hd1).
        exists a1. rewrite Hd1. auto.
      - assert (0 < len a)%Z.
        { destruct (data a) eqn:E; [discriminate|].
          rewrite <- (data_length a HC), E. simpl; lia. }
        destruct (truncate_ok a HC H) as (a1 & -> & HC1 & Hd1 & _).
        exists a1. rewrite Hd1. destruct (data a); [discriminate|auto]. }
    now apply IH.
Qed.

Lemma runrec_from_init ops lops l : Forall2 rec_lop ops lops -> lrun [] lops = Some l ->
  exists a, runrec v0 columns (initrec v0 columns) ops = (a, Ok tt) /\ Cap a /\ data a = l /\
            py_len a = Ok (Z.of_nat (length l)).
Proof.
  intros HF HR. destruct (runrec_refines ops lops HF (initrec v0 columns) l) as (a & Ha & HC & Hd).
  - apply cap_init.
  - exact HR.
  - exists a. split; [exact Ha|]. split; [exact HC|]. split; [exact Hd|].
    unfold py_len. rewrite <- Hd, (data_length a HC). destruct HC as (H0 & _).
    replace (len a <? 0)%Z with false; [reflexivity|]. symmetry. apply Z.ltb_ge. lia.
Qed.

(* columns *)
Lemma col_pos_nth cols c : NoDup cols -> forall p, nth_error cols p = Some c -> col_pos cols c = Some p.
Proof.
  induction 1 as [|k cols Hk HN IH]; intros [|p] H; simpl in *; try discriminate.
  - injection H as ->. now rewrite String.eqb_refl.
  - destruct (String.eqb_spec k c) as [->|Hkc].
    + exfalso. apply Hk. eapply nth_error_In; eauto.
    + rewrite (IH p H). reflexivity.
Qed.

Lemma forall2_nth (d : list (string * V)) cols row p c :
  Forall2 (lookup_spec d) cols row -> nth_error cols p = Some c ->
  lookup_spec d c (nth p row v0).
Proof.
  intros H. revert p; induction H as [|c' v cs vs Hc HF IH]; intros [|p] Hp; simpl in *; try discriminate.
  - injection Hp as ->. exact Hc.
  - now apply IH.
Qed.

Lemma lookup_fun d c v v' : lookup_spec d c v -> lookup_spec d c v' -> v = v'.
Proof. intros H H'. apply dict_get_spec in H, H'. congruence. Qed.

Lemma column_after_appends ds rows :
  Forall2 (fun d row => Forall2 (lookup_spec d) columns row) ds rows ->
  NoDup columns ->
  exists a, runrec v0 columns (initrec v0 columns) (map (fun d => AppendR (RDict d)) ds) = (a, Ok tt) /\
    forall c, In c columns -> forall vs, Forall2 (fun d v => lookup_spec d c v) ds vs ->
      getitemrec v0 columns int_of_string a (IStr c) = Ok (Column vs).
Proof.
  intros HF HN.
  assert (HL : Forall2 rec_lop (map (fun d => AppendR (RDict d)) ds) (map (fun r => LPush [r]) rows)).
  { clear HN. induction HF; constructor; auto. constructor. now constructor. }
  assert (HR : forall l, lrun l (map (fun r => LPush [r]) rows) = Some (l ++ rows)).
  { clear. induction rows as [|r rows IH]; intros l; cbn [map lrun]; [now rewrite app_nil_r|].
    rewrite IH, <- app_assoc. reflexivity. }
  destruct (runrec_from_init _ _ rows HL (HR [])) as (a & Ha & HC & Hd & _).
  exists a. split; [exact Ha|]. intros c Hc vs Hvs.
  apply In_nth_error in Hc. destruct Hc as [p Hp].
  unfold getitemrec. rewrite (col_pos_nth _ _ HN _ Hp), Hd. do 2 f_equal.
  clear - HF Hp Hvs. revert vs Hvs. induction HF as [|d row ds rows Hd HF IH]; intros vs Hvs; inversion Hvs; subst.
  - reflexivity.
  - cbn [map]. f_equal; [|now apply IH].
    eapply lookup_fun; [|eassumption]. eapply forall2_nth; eauto.
Qed.

(* negative indices *)
Lemma runrec_app ops1 : forall ops2 a a1, runrec v0 columns a ops1 = (a1, Ok tt) ->
  runrec v0 columns a (ops1 ++ ops2) = runrec v0 columns a1 ops2.
Proof.
  induction ops1 as [|o ops1 IH]; intros ops2 a a1 H; cbn [app runrec] in *.
  - now injection H as ->.
  - destruct (steprec v0 columns a o) as [a' [u|e]]; [now apply IH|discriminate].
Qed.

Lemma appends_stale rows : forall a, Cap a -> StoreIn (zerorec v0 columns) a ->
  Forall (fun r => length r = length columns) rows -> rows <> [] ->
  exists a', runrec v0 columns a (map (fun r => AppendR (RTuple r)) rows) = (a', Ok tt) /\
    Cap a' /\ data a' = data a ++ rows /\ Stale (zerorec v0 columns) a' /\ StoreIn (zerorec v0 columns) a'.
Proof.
  induction rows as [|r rows IH]; intros a HC HS HF Hne; [congruence|].
  inversion HF as [|? ? Hr HF']; subst. cbn [map runrec steprec].
  unfold appendrec. rewrite Hr, Nat.eqb_refl.
  destruct (append_ok (zerorec v0 columns) a r HC) as (a1 & HA & HC1 & Hd1 & _).
  rewrite HA. destruct (append_stale _ _ _ _ HC HS HA) as [HS1 HT1].
  destruct rows as [|r2 rows].
  - exists a1. cbn. auto.
  - destruct (IH a1 HC1 HS1 HF') as (a2 & H1 & H2 & H3 & H4 & H5); [discriminate|].
    exists a2. split; [exact H1|]. split; [exact H2|]. split; [|auto].
    rewrite H3, Hd1, <- app_assoc. reflexivity.
Qed.

Lemma last_index_wrong rows : rows <> [] ->
  Forall (fun r => length r = length columns) rows ->
  ~ In (zerorec v0 columns) rows -> NoDup rows ->
  exists a, runrec v0 columns (initrec v0 columns) (map (fun r => AppendR (RTuple r)) rows) = (a, Ok tt) /\
    data a = rows /\
    getitemrec v0 columns int_of_string a (IInt (-1)) <> Ok (Row (last rows [])).
Proof.
  intros Hne HF Hz HN.
  destruct (appends_stale rows (initrec v0 columns)) as (a & Ha & HC & Hd & HT & HS); auto.
  - apply cap_init.
  - apply storein_init.
  - exists a. split; [exact Ha|]. change (data (initrec v0 columns)) with (@nil (list V)) in Hd.
    cbn [app] in Hd. split; [exact Hd|].
    unfold getitemrec. change (-1 <? 0)%Z with true. cbn match.
    unfold py_get, rmap. destruct HC as (H0 & H1 & _).
    destruct (py_index (length (store a)) (len a + 1 - -1)) as [k|] eqn:Ek; [|discriminate].
    destruct (nth_error (store a) k) as [y|] eqn:Ey; [|discriminate].
    intros Heq. injection Heq as ->.
    assert (k = Z.to_nat (len a + 2)).
    { unfold py_index in Ek. destruct (_ && _)%bool in Ek.
      - injection Ek as <-. f_equal. lia.
      - destruct ((- Z.of_nat (length (store a)) <=? len a + 1 - -1) && (len a + 1 - -1 <? 0))%Z eqn:E2; [|discriminate].
        apply andb_true_iff in E2. lia. }
    assert (Hin : In (last rows []) rows).
    { destruct (exists_last Hne) as (rs & r & ->). rewrite last_last. apply in_or_app. right. now left. }
    destruct (HT k (last rows [])) as [Hz'|Hin']; [lia|exact Ey| |].
    + apply Hz. now rewrite <- Hz'.
    + rewrite Hd in Hin'. destruct (exists_last Hne) as (rs & r & ->).
      rewrite last_last in Hin'. rewrite removelast_last in Hin'.
      apply NoDup_remove_2 in HN. apply HN. rewrite app_nil_r. exact Hin'.
Qed.

(* every dictionary saved by any universe, in program order *)
Definition saved (events : list (uevent (V:=V))) : list (list (string * V)) :=
  flat_map (fun e => match e with SaveParams _ d => [d] | NewUniverse => [] end) events.

Lemma dict_row_length (d : list (string * V)) cols : forall row, dict_row cols d = Ok row -> length row = length cols.
Proof.
  induction cols as [|c cs IH]; intros row ED; cbn [dict_row] in ED.
  - now injection ED as <-.
  - destruct (dict_get d c); [|discriminate]. unfold rbind in ED.
    destruct (dict_row cs d) as [t|]; [|discriminate]. injection ED as <-. simpl. now rewrite (IH t).
Qed.

Lemma dict_get_inv (d : list (string * V)) c v : dict_get d c = Some v -> lookup_spec d c v.
Proof.
  induction d as [|[k x] d IH]; simpl; [discriminate|].
  destruct (String.eqb_spec k c) as [->|Hk].
  - intros H. injection H as ->. exists [], d. auto.
  - intros H. destruct (IH H) as (pre & post & -> & Hn).
    exists ((k, x) :: pre), post. split; [reflexivity|]. simpl. intros [E|E]; auto.
Qed.

Lemma dict_row_inv (d : list (string * V)) cols : forall row, dict_row cols d = Ok row -> Forall2 (lookup_spec d) cols row.
Proof.
  induction cols as [|c cs IH]; intros row ED; cbn [dict_row] in ED.
  - injection ED as <-. constructor.
  - destruct (dict_get d c) eqn:Eg; [|discriminate]. unfold rbind in ED.
    destruct (dict_row cs d) as [t|]; [|discriminate]. injection ED as <-.
    constructor; auto. now apply dict_get_inv.
Qed.

Lemma shared_all events : forall p, Cap (cls_data p) ->
  forall p', urun v0 columns p events = Ok p' ->
  exists rs, Forall2 (fun d r => Forall2 (lookup_spec d) columns r) (saved events) rs /\
    data (cls_data p') = data (cls_data p) ++ rs /\ Cap (cls_data p').
Proof.
  unfold urun. induction events as [|e events IH]; intros p HC p' HR; cbn [rfold] in HR.
  - injection HR as <-. exists []. split; [constructor|].
    now rewrite app_nil_r.
  - destruct e as [|u d]; cbn [ustep] in HR.
    + destruct (IH (mkproc (S (alive p)) (cls_data p)) HC _ HR) as (rs & H1 & H2).
      exists rs. auto.
    + destruct (u <? alive p); [|discriminate].
      destruct (appendrec v0 columns (cls_data p) (RDict d)) as [a1 [u1|e1]] eqn:EA; [|discriminate].
      unfold appendrec in EA. destruct (dict_row columns d) as [row|e2] eqn:ED; [|discriminate].
      rewrite (dict_row_length _ _ _ ED), Nat.eqb_refl in EA.
      destruct (append_ok (zerorec v0 columns) (cls_data p) row HC) as (a2 & HA2 & HC2 & Hd2 & _).
      rewrite EA in HA2. injection HA2 as -> _.
      destruct (IH (mkproc (alive p) a2) HC2 _ HR) as (rs & H1 & H2 & H3).
      exists (row :: rs).
      split; [cbn; constructor; auto; now apply dict_row_inv|]. split; [|exact H3].
      cbn [cls_data] in H2. rewrite H2, Hd2, <- app_assoc. reflexivity.
Qed.
End Rec.

(* ---------------- ring_deque ---------------- *)
Definition ring_run (r : ring) (xs : list Z) : ring := fold_left ring_append xs r.

Lemma ring_rlength xs : forall r, rlength (ring_run r xs) = rlength r.
Proof.
  unfold ring_run. induction xs as [|x xs IH]; intros r; cbn [fold_left]; [reflexivity|].
  rewrite IH. unfold ring_append, ring_append_more. now destruct (rebound r).
Qed.

(* suffix of the full sequence *)
Definition lastn {A} (n : nat) (l : list A) : list A := skipn (length l - n) l.

Lemma lastn_all {A} n (l : list A) : length l <= n -> lastn n l = l.
Proof. intros H. unfold lastn. replace (length l - n) with 0 by lia. reflexivity. Qed.
Lemma lastn_length {A} n (l : list A) : length (lastn n l) = Nat.min n (length l).
Proof. unfold lastn. rewrite skipn_length. lia. Qed.
Lemma tl_skipn {A} (l : list A) k : tl (skipn k l) = skipn (S k) l.
Proof.
  revert l; induction k as [|k IH]; intros [|x l]; try reflexivity.
  change (tl (skipn k l) = skipn (S k) l). apply IH.
Qed.
Lemma lastn_app_tl {A} n (l : list A) x :
  0 < n -> n <= length l -> tl (lastn n l) ++ [x] = lastn n (l ++ [x]).
Proof.
  intros Hn H. unfold lastn. rewrite tl_skipn, app_length. simpl.
  rewrite skipn_app. replace (length l + 1 - n) with (S (length l - n)) by lia.
  replace (S (length l - n) - length l) with 0 by lia. reflexivity.
Qed.

Lemma ring_more_run xs : forall r all (n : nat), rebound r = true -> rlength r = Z.of_nat n ->
  items r = lastn (S n) all ->
  items (ring_run r xs) = lastn (S n) (all ++ xs).
Proof.
  unfold ring_run. induction xs as [|x xs IH]; intros r all n Hb Hl Hi; cbn [fold_left].
  - now rewrite app_nil_r.
  - rewrite (IH (ring_append r x) (all ++ [x]) n).
    + now rewrite <- app_assoc.
    + unfold ring_append. rewrite Hb. reflexivity.
    + unfold ring_append. rewrite Hb. exact Hl.
    + unfold ring_append. rewrite Hb. unfold ring_append_more. cbn [items].
      rewrite Hl, Hi. rewrite lastn_length.
      destruct (Nat.le_gt_cases (S n) (length all)) as [H|H].
      * replace (Z.of_nat (Nat.min (S n) (length all)) >? Z.of_nat n)%Z with true
          by (symmetry; apply Z.gtb_lt; lia).
        apply lastn_app_tl; lia.
      * replace (Z.of_nat (Nat.min (S n) (length all)) >? Z.of_nat n)%Z with false
          by (symmetry; rewrite Z.gtb_ltb; apply Z.ltb_ge; lia).
        rewrite !lastn_all; [reflexivity|rewrite app_length; simpl; lia|lia].
Qed.

(* exact contents law: the newest length+1 values *)
Lemma ring_contents (d : list Z) (n : nat) (x : Z) (xs : list Z) :
  length d <= n ->
  items (ring_run (ring_init d (Z.of_nat n)) (x :: xs)) = lastn (S n) (d ++ x :: xs).
Proof.
  intros Hd. unfold ring_run. cbn [fold_left]. fold (ring_run (ring_append (ring_init d (Z.of_nat n)) x) xs).
  rewrite (ring_more_run xs _ (d ++ [x]) n).
  - now rewrite <- app_assoc.
  - reflexivity.
  - reflexivity.
  - cbn. rewrite lastn_all; [reflexivity|]. rewrite app_length; simpl; lia.
Qed.

Lemma ring_extremes_more xs : forall r, rebound r = true ->
  rmax (ring_run r xs) = fold_right Z.max (rmax r) xs /\
  rmin (ring_run r xs) = fold_right Z.min (rmin r) xs.
Proof.
  unfold ring_run. induction xs as [|x xs IH]; intros r Hb; cbn [fold_left fold_right]; [auto|].
  assert (Hb2 : rebound (ring_append r x) = true) by (unfold ring_append; rewrite Hb; reflexivity).
  destruct (IH _ Hb2) as [H1 H2]. rewrite H1, H2.
  unfold ring_append. rewrite Hb. unfold ring_append_more. cbn [rmax rmin].
  split; clear; [induction xs|induction xs]; simpl; lia.
Qed.

Lemma ring_extremes d n x xs :
  let r := ring_run (ring_init d n) (x :: xs) in
  (forall y, In y (x :: xs) -> (rmin r <= y <= rmax r)%Z) /\
  In (rmax r) (x :: xs) /\ In (rmin r) (x :: xs).
Proof.
  cbn zeta. unfold ring_run. cbn [fold_left]. fold (ring_run (ring_append (ring_init d n) x) xs).
  destruct (ring_extremes_more xs (ring_append (ring_init d n) x) eq_refl) as [H1 H2].
  rewrite H1, H2. cbn [ring_append ring_init rebound rmax rmin]. clear.
  assert (Hbase : forall l b y, (y = b \/ In y l) -> (fold_right Z.min b l <= y <= fold_right Z.max b l)%Z).
  { induction l as [|z l IH]; simpl; intros b y Hy.
    - intuition lia.
    - assert (fold_right Z.min b l <= b <= fold_right Z.max b l)%Z by (apply IH; auto).
      destruct Hy as [->|[->|Hy]]; [lia|lia|]. specialize (IH b y (or_intror Hy)). lia. }
  assert (Hmax : forall l b, fold_right Z.max b l = b \/ In (fold_right Z.max b l) l).
  { induction l as [|z l IH]; simpl; intros b; [auto|].
    destruct (Z.max_spec z (fold_right Z.max b l)) as [[_ ->]|[_ ->]]; [|auto].
    destruct (IH b); auto. }
  assert (Hmin : forall l b, fold_right Z.min b l = b \/ In (fold_right Z.min b l) l).
  { induction l as [|z l IH]; simpl; intros b; [auto|].
    destruct (Z.min_spec z (fold_right Z.min b l)) as [[_ ->]|[_ ->]]; [auto|].
    destruct (IH b); auto. }
  split; [|split].
  - intros y [<-|Hy]; apply Hbase; auto.
  - destruct (Hmax xs x) as [->|H]; [now left|now right].
  - destruct (Hmin xs x) as [->|H]; [now left|now right].
Qed.

(* ---------------- Throttler ---------------- *)
(* acceptance times: those paired with true *)
Definition accepted (times : list Z) (outs : list bool) : list Z :=
  map fst (filter (fun p => snd p) (combine times outs)).

Lemma thr_gap times : forall t, (0 <= trate t)%Z ->
  forall pre a b post, tclock t :: accepted times (thr_run t times) = pre ++ a :: b :: post ->
  (b - a >= trate t)%Z.
Proof.
  induction times as [|n times IH]; intros t Hr pre a b post H.
  - cbn in H. destruct pre as [|x [|y pre]]; discriminate.
  - cbn [thr_run] in H. unfold thr_update in H.
    destruct (n - tclock t <? trate t)%Z eqn:E.
    + unfold accepted in H. cbn [combine filter snd] in H.
      exact (IH (mkthr (tclock t) (trate t) false) Hr pre a b post H).
    + unfold accepted in H. cbn [combine filter snd map fst] in H.
      destruct pre as [|x pre].
      * injection H as <- <- _. apply Z.ltb_ge in E. lia.
      * cbn in H. injection H as _ H. exact (IH (mkthr n (trate t) true) Hr pre a b post H).
Qed.

(* the clock kept after a run is the last accepted time (or the start) *)
Definition last_accepted (t0 : Z) (times : list Z) (outs : list bool) : Z :=
  last (accepted times outs) t0.

Lemma thr_last_cons (t0 x : Z) l : last (x :: l) t0 = last l x.
Proof. revert x t0; induction l as [|y l IH]; intros x t0; [reflexivity|]. cbn [last] in *. destruct l; [reflexivity|]. apply (IH x). Qed.

Lemma thr_decision times : forall t n,
  nth (length times) (thr_run t (times ++ [n])) false = true <->
  (n - last_accepted (tclock t) times (thr_run t times) >= trate t)%Z.
Proof.
  induction times as [|m times IH]; intros t n.
  - unfold last_accepted, accepted. cbn [app length thr_run combine filter map last].
    destruct (thr_update t n) as [t' b] eqn:Et. unfold thr_update in Et.
    destruct (n - tclock t <? trate t)%Z eqn:E; injection Et as <- <-; cbn [nth].
    + apply Z.ltb_lt in E. split; [discriminate|lia].
    + apply Z.ltb_ge in E. split; [lia|reflexivity].
  - cbn [app length thr_run]. destruct (thr_update t m) as [t' b] eqn:Et.
    unfold thr_update in Et.
    destruct (m - tclock t <? trate t)%Z eqn:E; injection Et as <- <-; cbn [nth].
    + rewrite IH. unfold last_accepted, accepted. cbn [combine filter snd map fst tclock trate]. reflexivity.
    + rewrite IH. unfold last_accepted, accepted. cbn [combine filter snd map fst tclock trate].
      now rewrite thr_last_cons.
Qed.

(* ---------------- witnesses ---------------- *)
Lemma truncate_empty_bad {A} (zero r : A) :
  let a := fst (truncate (init zero)) in
  data a = repeat zero 8 /\ py_len a = Raise ValueError /\
  data (fst (append_row zero a (Some r))) = [] /\
  snd (append_row zero a (Some r)) = Ok tt.
Proof. cbn. repeat split. Qed.

Lemma shared_refuted {V} (v0 v1 : V) (c : string) :
  exists p, urun v0 [c] (uproc_init v0 [c]) [NewUniverse; SaveParams 0 [(c, v1)]; NewUniverse] = Ok p /\
            udata p 1 = [[v1]].
Proof.
  assert (E : appendrec v0 [c] (initrec v0 [c]) (RDict [(c, v1)]) =
              (mkdarr 1 10 ([v1] :: repeat [v0] 9), Ok tt)).
  { unfold appendrec. cbn [dict_row dict_get]. rewrite String.eqb_refl. reflexivity. }
  exists (mkproc 2 (mkdarr 1 10 ([v1] :: repeat [v0] 9))).
  split; [|reflexivity]. unfold urun. cbn [rfold ustep uproc_init alive cls_data].
  change (0 <? 1) with true. cbn match. rewrite E. reflexivity.
Qed.
