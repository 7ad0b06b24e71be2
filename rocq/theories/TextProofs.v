(* Proofs about the text tables of TextModel. *)
From Coq Require Import Reals Lra Lia Ascii.
From Verif Require Import Base ArraysModel ArraysProofs TextModel.
Open Scope R_scope.
Local Notation length := List.length.

(* The character does not occur in the text. *)
Fixpoint without (c : ascii) (s : string) : Prop :=
  match s with EmptyString => True | String a r => a <> c /\ without c r end.

Lemma without_app c s t : without c s -> without c t -> without c (s ++ t)%string.
Proof. induction s as [|a s IH]; cbn; [easy|]. intros [H1 H2] H3. auto. Qed.

Lemma string_app_assoc (a b c : string) : ((a ++ b) ++ c = a ++ (b ++ c))%string.
Proof. induction a as [|h a IH]; cbn; congruence. Qed.
Lemma string_app_nil (a : string) : (a ++ EmptyString = a)%string.
Proof. induction a as [|h a IH]; cbn; congruence. Qed.

Lemma split_free c s : without c s -> split_on c s = [s].
Proof.
  induction s as [|a s IH]; cbn [split_on without]; [easy|]. intros [H1 H2].
  rewrite (IH H2). apply Ascii.eqb_neq in H1. now rewrite H1.
Qed.
Lemma split_app c s t : without c s ->
  split_on c (s ++ String c EmptyString ++ t)%string = s :: split_on c t.
Proof.
  induction s as [|a s IH]; cbn.
  - now rewrite Ascii.eqb_refl.
  - intros [H1 H2]. apply Ascii.eqb_neq in H1. rewrite H1.
    change (String c t) with (String c EmptyString ++ t)%string. now rewrite (IH H2).
Qed.
Lemma split_concat c l : Forall (without c) l -> l <> [] ->
  split_on c (String.concat (String c EmptyString) l) = l.
Proof.
  induction 1 as [|s l Hs Hl IH]; [easy|]. intros _.
  destruct l as [|s' l]; [now apply split_free|].
  change (String.concat (String c EmptyString) (s :: s' :: l))
    with (s ++ String c EmptyString ++ String.concat (String c EmptyString) (s' :: l))%string.
  rewrite (split_app _ _ _ Hs), IH by easy. reflexivity.
Qed.
Lemma concat_without c sep l : Forall (without c) l -> without c sep ->
  without c (String.concat sep l).
Proof.
  intros H Hs. induction H as [|s l H Hl IH]; [exact I|].
  destruct l as [|s' l]; [exact H|].
  change (String.concat sep (s :: s' :: l)) with (s ++ sep ++ String.concat sep (s' :: l))%string.
  auto using without_app.
Qed.

(* a text made of terminated lines splits back into them *)
Definition terminated (ls : list string) : string :=
  String.concat EmptyString (map (fun l => (l ++ eol)%string) ls).
Lemma terminated_cons l ls : terminated (l :: ls) = (l ++ eol ++ terminated ls)%string.
Proof.
  unfold terminated. cbn [map].
  destruct ls as [|l' ls]; cbn [map].
  - cbn [String.concat]. now rewrite string_app_nil.
  - change (String.concat EmptyString ((l ++ eol)%string :: (l' ++ eol)%string
                                   :: map (fun l => (l ++ eol)%string) ls))
      with ((l ++ eol) ++ EmptyString ++ String.concat EmptyString ((l' ++ eol)%string
                                   :: map (fun l => (l ++ eol)%string) ls))%string.
    now rewrite string_app_assoc.
Qed.
Lemma terminated_app l1 l2 : terminated (l1 ++ l2) = (terminated l1 ++ terminated l2)%string.
Proof.
  induction l1 as [|l l1 IH]; [reflexivity|].
  cbn [app]. rewrite !terminated_cons, IH, !string_app_assoc. reflexivity.
Qed.
Lemma lines_terminated ls : Forall (without newline) ls -> lines_of (terminated ls) = ls.
Proof.
  intros H. assert (E : split_on newline (terminated ls) = ls ++ [EmptyString]).
  { induction H as [|l ls Hl Hls IH]; [reflexivity|].
    rewrite terminated_cons. unfold eol. rewrite (split_app _ _ _ Hl), IH. reflexivity. }
  unfold lines_of. rewrite E, last_last, removelast_last. reflexivity.
Qed.

(* lookup by name is positional when the names are distinct *)
Lemma col_pos_nodup l i c : NoDup l -> nth_error l i = Some c -> col_pos l c = Some i.
Proof.
  revert i. induction l as [|k l IH]; intros i Hd Hi; [now destruct i|].
  inversion Hd as [|? ? Hk Hl]; subst. cbn [col_pos]. destruct i as [|i]; cbn in Hi.
  - injection Hi as ->. now rewrite String.eqb_refl.
  - destruct (String.eqb_spec k c) as [->|_].
    + exfalso. apply Hk. eapply nth_error_In; eauto.
    + now rewrite (IH i Hl Hi).
Qed.

Lemma map_nth_ext {A B} (f g : A -> B) (l : list A) :
  (forall i a, nth_error l i = Some a -> f a = g a) -> map f l = map g l.
Proof.
  intros H. apply map_ext_in. intros a Ha. apply In_nth_error in Ha as [i Hi]. eauto.
Qed.

Lemma py_get_last {A} (l : list A) x : py_get (l ++ [x]) (-1) = Ok x.
Proof.
  unfold py_get, py_index. rewrite app_length. cbn [length].
  destruct (Z.leb_spec 0 (-1)); [lia|]. cbn [andb].
  destruct (Z.leb_spec (- Z.of_nat (length l + 1)) (-1)); [|lia]. cbn [andb Z.ltb Z.compare].
  replace (Z.to_nat (Z.of_nat (length l + 1) + -1)) with (length l) by lia.
  rewrite nth_error_app2, Nat.sub_diag by lia. reflexivity.
Qed.

Section Tables.
Variables (fmt_e : R -> string).
Variable cols : list column.
Hypothesis Hnd : NoDup (names cols).

Definition cells (row : list R) : list R :=
  map (fun cv => snd cv / cfactor (fst cv)) (combine cols row).

Lemma named_cells {B} (f : column -> R -> B) row : length row = length cols ->
  map (fun c => f c (field cols row (cname c))) cols
  = map (fun cv => f (fst cv) (snd cv)) (combine cols row).
Proof.
  intros Hl.
  enough (H : forall pre post rpre rpost, cols = pre ++ post -> row = rpre ++ rpost ->
            length pre = length rpre ->
            map (fun c => f c (field cols row (cname c))) post
            = map (fun cv => f (fst cv) (snd cv)) (combine post rpost)).
  { exact (H [] cols [] row eq_refl eq_refl eq_refl). }
  intros pre post. revert pre. induction post as [|c post IH]; intros pre rpre rpost E1 E2 El;
    [reflexivity|].
  destruct rpost as [|v rpost].
  { exfalso. rewrite E1, E2, !app_length in Hl. cbn [length] in Hl. lia. }
  cbn [combine map fst snd]. f_equal.
  - f_equal. unfold field. rewrite (col_pos_nodup _ (length pre) (cname c) Hnd).
    + rewrite E2, El, nth_middle. reflexivity.
    + unfold names. rewrite E1, map_app, nth_error_app2; rewrite map_length; [|lia].
      now rewrite Nat.sub_diag.
  - apply (IH (pre ++ [c]) (rpre ++ [v]) rpost).
    + now rewrite <- app_assoc.
    + now rewrite <- app_assoc.
    + rewrite !app_length. cbn [length]. lia.
Qed.

Definition line (row : list R) : string := String.concat tabs (map fmt_e (cells row)).

Lemma row_repr_last fmt_2e a row rows : data a = rows ++ [row] -> length row = length cols ->
  row_repr fmt_e fmt_2e cols a (-1) false = Ok (line row).
Proof.
  intros Hd Hl. unfold row_repr. rewrite Hd, py_get_last. cbn [rbind]. unfold line. do 2 f_equal.
  rewrite (named_cells (fun c v => fmt_e (v / cfactor c)) row Hl).
  unfold cells. symmetry. apply map_map.
Qed.

Lemma log_save_ok fmt_2e a f rows rec row : Cap a -> data a = rows ->
  row_spec (names cols) rec row ->
  exists a', log_save fmt_e fmt_2e cols (a, f) rec
             = Ok (a', (f ++ terminated [line row])%string) /\ Cap a' /\ data a' = rows ++ [row].
Proof.
  intros HC Hd Hr. unfold log_save. cbn [fst snd].
  destruct (appendrec_ok 0 (names cols) a rec row HC Hr) as (a' & E & HC' & Hd' & _).
  rewrite E. cbn [rbind]. rewrite Hd in Hd'.
  assert (Hl : length row = length cols).
  { destruct Hr as [d row Hf|t Ht].
    - apply Forall2_len in Hf. unfold names in Hf. rewrite map_length in Hf. auto.
    - unfold names in Ht. now rewrite map_length in Ht. }
  rewrite (row_repr_last _ a' row rows Hd' Hl). cbn [rbind].
  exists a'. split; [|auto]. do 3 f_equal.
Qed.

Lemma log_run fmt_2e recs rows : Forall2 (row_spec (names cols)) recs rows ->
  forall a f rows0, Cap a -> data a = rows0 ->
  exists a', rfold (log_save fmt_e fmt_2e cols) (a, f) recs
             = Ok (a', (f ++ terminated (map line rows))%string) /\ Cap a' /\ data a' = rows0 ++ rows.
Proof.
  induction 1 as [|r row recs rows Hr HF IH]; intros a f rows0 HC Hd.
  - exists a. cbn. rewrite string_app_nil, app_nil_r. auto.
  - destruct (log_save_ok fmt_2e a f rows0 r row HC Hd Hr) as (a1 & E1 & HC1 & Hd1).
    destruct (IH a1 (f ++ terminated [line row])%string _ HC1 Hd1) as (a2 & E2 & HC2 & Hd2).
    exists a2. cbn [rfold]. rewrite E1. rewrite E2. split; [|split].
    + rewrite string_app_assoc, <- terminated_app. reflexivity.
    + exact HC2.
    + rewrite Hd2, <- app_assoc. reflexivity.
Qed.
End Tables.

(* the dictionary of a KAWANO row *)
Lemma lookup_combine (ns : list string) : NoDup ns -> forall vs : list R, length ns = length vs ->
  Forall2 (lookup_spec (combine ns vs)) ns vs.
Proof.
  intros Hd vs Hl.
  enough (H : forall (pre : list (string * R)) ns2 vs2, length ns2 = length vs2 ->
            NoDup (map fst pre ++ ns2) ->
            Forall2 (lookup_spec (pre ++ combine ns2 vs2)) ns2 vs2).
  { apply (H [] ns vs Hl Hd). }
  clear. intros pre ns2. revert pre. induction ns2 as [|n ns2 IH]; intros pre [|v vs2] Hl Hd;
    try discriminate; constructor.
  - exists pre, (combine ns2 vs2). split; [reflexivity|].
    apply NoDup_remove_2 in Hd. intros H. apply Hd. apply in_or_app. now left.
  - specialize (IH (pre ++ [(n, v)]) vs2). cbn [combine].
    replace (pre ++ (n, v) :: combine ns2 vs2) with ((pre ++ [(n, v)]) ++ combine ns2 vs2)
      by now rewrite <- app_assoc.
    apply IH.
    + now injection Hl.
    + rewrite map_app. cbn [map fst]. now rewrite <- app_assoc.
Qed.

Lemma rfold_map {S O O'} (step : S -> O' -> result S) (f : O -> O') l s :
  rfold (fun s o => step s (f o)) s l = rfold step s (map f l).
Proof. revert s. induction l as [|o l IH]; intros s; cbn; [reflexivity|]. destruct (step s (f o)); auto. Qed.
Lemma rfold_ext_in {S O} (s1 s2 : S -> O -> result S) l :
  (forall s o, In o l -> s1 s o = s2 s o) -> forall s, rfold s1 s l = rfold s2 s l.
Proof.
  induction l as [|o l IH]; intros H s; cbn; [reflexivity|].
  rewrite H by now left. destruct (s2 s o); [|reflexivity]. apply IH. intros; apply H; now right.
Qed.

Definition kvalues (k : kstep) : list R :=
  [kt k; kx k; kT k; kdTdt k; krho k; kH k] ++ krates k.

Lemma heading_nodup s MeV K9 g : NoDup (names (heading s MeV K9 g)).
Proof. unfold names, heading. cbn [map cname]. repeat constructor; cbn; intuition discriminate. Qed.

Lemma kawano_row_six s MeV K9 g k : length (krates k) = 6%nat ->
  kawano_row (names (heading s MeV K9 g)) k
  = Ok (combine (names (heading s MeV K9 g)) (kvalues k)).
Proof.
  unfold kvalues. destruct k as [t x T d r H rs]. cbn [krates kt kx kT kdTdt krho kH]. intros Hl.
  destruct rs as [|r1 [|r2 [|r3 [|r4 [|r5 [|r6 [|? ?]]]]]]]; try discriminate Hl. reflexivity.
Qed.

Lemma kawano_log_run fmt_e fmt_2e s MeV K9 g steps :
  Forall (fun k => length (krates k) = 6%nat) steps ->
  let cols := heading s MeV K9 g in
  exists a, rfold (save_step fmt_e fmt_2e cols) (log_init cols) steps
            = Ok (a, terminated (String.concat tabs (names cols)
                                 :: map (line fmt_e cols) (map kvalues steps))) /\ data a = map kvalues steps.
Proof.
  intros H6 cols.
  assert (HF : Forall2 (row_spec (names cols))
                 (map (fun k => RDict (combine (names cols) (kvalues k))) steps) (map kvalues steps)).
  { induction H6 as [|k steps Hk Hs IH]; cbn [map]; constructor; [|exact IH].
    apply row_dict. apply lookup_combine; [apply heading_nodup|].
    unfold kvalues. rewrite app_length, Hk. reflexivity. }
  destruct (log_run fmt_e cols (heading_nodup _ _ _ _) fmt_2e _ _ HF
              (initrec 0 (names cols)) (log_heading cols) []) as (a & E & _ & Hd).
  { apply cap_init. }
  { reflexivity. }
  exists a. split; [|exact Hd].
  rewrite terminated_cons. unfold log_heading in E. rewrite string_app_assoc in E.
  rewrite <- E, <- rfold_map. unfold log_init. apply rfold_ext_in.
  intros st k Hk. unfold save_step. rewrite Forall_forall in H6.
  unfold cols. rewrite (kawano_row_six _ _ _ _ _ (H6 k Hk)). reflexivity.
Qed.

(* reading lines back *)
Definition legible (parse : string -> option R) (eps : R) (v : R) (text : string) : Prop :=
  exists y, parse text = Some y /\ Rabs (y - v) <= eps * Rabs v.

Lemma split_cells fmt (P : R -> Prop) parse eps l : l <> [] ->
  (forall x, P x -> without tab (fmt x) /\ legible parse eps x (fmt x)) -> Forall P l ->
  Forall2 (legible parse eps) l (split_on tab (String.concat tabs (map fmt l))).
Proof.
  intros Hne Hc HP. unfold tabs. rewrite split_concat.
  - clear Hne. induction HP as [|v l Hv Hl IH]; constructor; [apply Hc; exact Hv|exact IH].
  - apply Forall_map. eapply Forall_impl; [|exact HP]. intros x Hx. now apply Hc.
  - destruct l; [easy|discriminate].
Qed.
Lemma cells_without c fmt (P : R -> Prop) l : without c tabs ->
  (forall x, P x -> without c (fmt x)) -> Forall P l ->
  without c (String.concat tabs (map fmt l)).
Proof.
  intros Ht Hc HP. apply concat_without; [|exact Ht].
  apply Forall_map. eapply Forall_impl; [|exact HP]. exact Hc.
Qed.

Lemma import_row_lists parse cols v r : 
  import_row parse (map KList cols) (v :: r)
  = Raise (match parse v with
           | None => ValueError
           | Some _ => match cols with [] => IndexError | _ => TypeError end
           end).
Proof. cbn [import_row]. destruct (parse v); [|reflexivity]. destruct cols; reflexivity. Qed.
Lemma split_nonempty c s : exists h t, split_on c s = h :: t.
Proof.
  induction s as [|a s (h & t & E)]; cbn; [eauto|]. rewrite E.
  destruct (Ascii.eqb a c); eauto.
Qed.
Lemma import_row_names parse : forall ns texts ys, length ns = length texts ->
  Forall2 (fun t y => parse t = Some y) texts ys ->
  import_row parse (map KString ns) texts = Ok (combine ns ys).
Proof.
  induction ns as [|n ns IH]; intros [|t texts] ys Hl HF; try discriminate.
  - inversion HF; subst. reflexivity.
  - inversion HF as [|? y ? ys' Hy HF']; subst. cbn [import_row map combine]. rewrite Hy.
    rewrite (IH texts ys' (f_equal pred Hl) HF'). reflexivity.
Qed.
Lemma import_rows_names parse ns : forall ls yss,
  Forall2 (fun l ys => length (split_on tab l) = length ns /\ Forall2 (fun t y => parse t = Some y) (split_on tab l) ys) ls yss ->
  import_rows parse (map KString ns) ls = Ok (map (combine ns) yss).
Proof.
  induction 1 as [|l ys ls yss [Hl Hy] HF IH]; [reflexivity|].
  cbn [import_rows map]. rewrite (import_row_names parse ns _ ys (eq_sym Hl) Hy). cbn [rbind].
  rewrite IH. reflexivity.
Qed.
Lemma legible_values parse eps vs texts : Forall2 (legible parse eps) vs texts ->
  exists ys, Forall2 (fun t y => parse t = Some y) texts ys /\ Forall2 (fun v y => Rabs (y - v) <= eps * Rabs v) vs ys.
Proof.
  induction 1 as [|v t vs texts (y & Hy & He) HF (ys & IH1 & IH2)].
  - exists []. auto.
  - exists (y :: ys). auto.
Qed.
