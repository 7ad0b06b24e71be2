(* The text tables of a run: the table for KAWANO and the tables of savetxt read
   back to the recorded numbers; kawano.import_data reads none of them. *)
From Coq Require Import Reals Lra Lia Ascii.
From Verif Require Import Base ArraysModel ArraysProofs TextModel TextProofs.
Open Scope R_scope.
Local Notation length := List.length.

(* The format writes a number as text without tabs and line breaks, and the text
   reads back to the number within a relative error eps (5e-7 for '{:e}'). *)
Definition faithful_format (fmt : R -> string) (parse : string -> option R) (eps : R)
  (P : R -> Prop) : Prop :=
  forall x, P x -> without tab (fmt x) /\ without newline (fmt x) /\
                   exists y, parse (fmt x) = Some y /\ Rabs (y - x) <= eps * Rabs x.

(* What the columns of s4.dat are to hold: the time in seconds, x in MeV, the
   temperature in 10^9 K and so on, then the six rates. *)
Definition in_kawano_units (s MeV K9 g_cm3 : R) (k : kstep) : list R :=
  [kt k / s; kx k / MeV; kT k / K9; kdTdt k * s / K9; krho k / g_cm3; kH k * s] ++ krates k.

Lemma in_units_cells s MeV K9 g k : 0 < s -> 0 < K9 -> length (krates k) = 6%nat ->
  cells (heading s MeV K9 g) (kvalues k) = in_kawano_units s MeV K9 g k.
Proof.
  intros Hs HK. unfold kvalues, in_kawano_units.
  destruct k as [t x T d r H rs]. cbn [krates kt kx kT kdTdt krho kH]. intros Hl.
  destruct rs as [|r1 [|r2 [|r3 [|r4 [|r5 [|r6 [|? ?]]]]]]]; try discriminate Hl.
  cbn. repeat (apply f_equal2; [try reflexivity; field; lra|]). reflexivity.
Qed.

Lemma kawano_file s MeV K9 g fmt_e fmt_2e parse eps P steps :
  0 < s -> 0 < K9 -> faithful_format fmt_e parse eps P ->
  Forall (fun k => length (krates k) = 6%nat) steps ->
  Forall (fun k => Forall P (in_kawano_units s MeV K9 g k)) steps ->
  let cols := heading s MeV K9 g in
  exists a file, rfold (save_step fmt_e fmt_2e cols) (log_init cols) steps = Ok (a, file) /\
    data a = map kvalues steps /\
    exists body, lines_of file = String.concat tabs (names cols) :: body /\
      Forall2 (fun k l => Forall2 (legible parse eps) (in_kawano_units s MeV K9 g k)
                                  (split_on tab l)) steps body.
Proof.
  intros Hs HK Hf H6 HP cols.
  destruct (kawano_log_run fmt_e fmt_2e s MeV K9 g steps H6) as (a & E & Hd).
  exists a. eexists. split; [exact E|]. split; [exact Hd|].
  exists (map (line fmt_e cols) (map kvalues steps)).
  assert (HE : forall k, In k steps -> cells cols (kvalues k) = in_kawano_units s MeV K9 g k).
  { intros k Hk. rewrite Forall_forall in H6. apply in_units_cells; auto. }
  split.
  - apply lines_terminated. constructor.
    + apply concat_without; [|cbn; intuition discriminate].
      unfold names, heading. cbn [map cname].
      repeat constructor; cbn; discriminate.
    + rewrite Forall_forall. intros l Hl. rewrite map_map in Hl.
      apply in_map_iff in Hl as (k & <- & Hk). unfold line. rewrite (HE k Hk).
      apply (cells_without _ _ P); [cbn; intuition discriminate| |].
      * intros x Hx. now apply Hf.
      * rewrite Forall_forall in HP. now apply HP.
  - clear E Hd. revert HE H6 HP.
    induction steps as [|k steps IH]; intros HE H6 HP; cbn [map]; constructor.
    + unfold line. rewrite (HE k (or_introl eq_refl)).
      apply (split_cells _ P).
      * discriminate.
      * intros x Hx. destruct (Hf x Hx) as (H1 & _ & H2). split; [exact H1|exact H2].
      * now inversion HP.
    + apply IH.
      * intros k' Hk'. apply HE. now right.
      * now inversion H6.
      * now inversion HP.
Qed.

(* Reading s4.dat back: its first line names the twelve columns, and every saved
   step has one line of twelve fields that read back, in order, to its numbers in
   the units of the heading. *)
Theorem C161_kawano_table_reads_back :
  forall s MeV K9 g_cm3 fmt_e fmt_2e parse eps P steps,
  0 < s -> 0 < K9 -> faithful_format fmt_e parse eps P ->
  Forall (fun k => length (krates k) = 6%nat) steps ->
  Forall (fun k => Forall P (in_kawano_units s MeV K9 g_cm3 k)) steps ->
  let cols := heading s MeV K9 g_cm3 in
  exists a file, rfold (save_step fmt_e fmt_2e cols) (log_init cols) steps = Ok (a, file) /\
    exists first body, lines_of file = first :: body /\
      split_on tab first = ["t"; "x"; "Tg"; "dTg/dt"; "rho_tot"; "H"; "n nue->p e"; "p e->n nue";
                            "n->p e nue"; "p e nue->n"; "n e->p nue"; "p nue->n e"]%string /\
      Forall2 (fun k l =>
                 Forall2 (fun v text => exists y, parse text = Some y /\
                                                  Rabs (y - v) <= eps * Rabs v)
                         (in_kawano_units s MeV K9 g_cm3 k) (split_on tab l)) steps body.
Proof.
  intros s MeV K9 g fmt_e fmt_2e parse eps P steps Hs HK Hf H6 HP cols.
  destruct (kawano_file s MeV K9 g fmt_e fmt_2e parse eps P steps Hs HK Hf H6 HP)
    as (a & file & E & _ & body & El & HF).
  exists a, file. split; [exact E|]. exists (String.concat tabs (names cols)), body.
  split; [exact El|]. split; [reflexivity|exact HF].
Qed.
Print Assumptions C161_kawano_table_reads_back.

(* A save with another number of rates fails: the table has no column for a
   seventh rate, and a missing one leaves a column of the record without value. *)
Theorem C161_other_numbers_of_rates :
  forall s MeV K9 g_cm3 fmt_e fmt_2e a f k,
  let cols := heading s MeV K9 g_cm3 in
  ((6 < length (krates k))%nat -> save_step fmt_e fmt_2e cols (a, f) k = Raise IndexError) /\
  ((length (krates k) < 6)%nat -> save_step fmt_e fmt_2e cols (a, f) k = Raise KeyError).
Proof.
  intros s MeV K9 g fmt_e fmt_2e a f k cols.
  destruct k as [t x T d r H rs]. cbn [krates]. split; intros Hl.
  - destruct rs as [|r1 [|r2 [|r3 [|r4 [|r5 [|r6 [|r7 rs]]]]]]]; cbn [length] in Hl; try lia.
    reflexivity.
  - destruct rs as [|r1 [|r2 [|r3 [|r4 [|r5 [|r6 rs]]]]]]; cbn [length] in Hl; try lia;
      reflexivity.
Qed.
Print Assumptions C161_other_numbers_of_rates.

(* Two steps, written with a format that knows the numbers 1 and 2. *)
Definition ex_fmt (x : R) : string :=
  if Req_EM_T x 1 then "1.000000e+00"%string else "2.000000e+00"%string.
Definition ex_parse (t : string) : option R :=
  if String.eqb t "1.000000e+00" then Some 1
  else if String.eqb t "2.000000e+00" then Some 2 else None.
Definition ex_num (x : R) : Prop := x = 1 \/ x = 2.
Lemma ex_format : faithful_format ex_fmt ex_parse 0 ex_num.
Proof.
  intros x Hx. unfold ex_fmt. destruct (Req_EM_T x 1) as [->|Hn].
  - split; [cbn; intuition discriminate|]. split; [cbn; intuition discriminate|].
    exists 1. split; [reflexivity|]. rewrite Rminus_diag_eq, Rabs_R0 by reflexivity. lra.
  - destruct Hx as [->| ->]; [lra|].
    split; [cbn; intuition discriminate|]. split; [cbn; intuition discriminate|].
    exists 2. split; [reflexivity|]. rewrite Rminus_diag_eq, Rabs_R0 by reflexivity. lra.
Qed.
Definition ex_steps : list kstep :=
  [mkstep 3 5 14 (7 / 3) 22 (1 / 3) [1; 2; 1; 2; 1; 2];
   mkstep 6 10 7 (14 / 3) 11 (2 / 3) [2; 2; 2; 1; 1; 1]].
Lemma ex_steps_ok : Forall (fun k => length (krates k) = 6%nat) ex_steps /\
  Forall (fun k => Forall ex_num (in_kawano_units 3 5 7 11 k)) ex_steps.
Proof.
  split; [repeat constructor|]. unfold ex_steps, in_kawano_units, ex_num.
  repeat (apply Forall_cons || apply Forall_nil);
    cbn [kt kx kT kdTdt krho kH krates]; (left; lra) || (right; lra).
Qed.
Example C161_ex :
  let cols := heading 3 5 7 11 in
  exists a file, rfold (save_step ex_fmt ex_fmt cols) (log_init cols) ex_steps = Ok (a, file) /\
    exists first body, lines_of file = first :: body /\ length body = 2%nat.
Proof.
  destruct (C161_kawano_table_reads_back 3 5 7 11 ex_fmt ex_fmt ex_parse 0 ex_num ex_steps)
    as (a & file & E & first & body & El & _ & HF).
  - lra.
  - lra.
  - exact ex_format.
  - apply ex_steps_ok.
  - apply ex_steps_ok.
  - exists a, file. split; [exact E|]. exists first, body. split; [exact El|].
    apply Forall2_len in HF. now rewrite <- HF.
Qed.

(* savetxt: after the heading, one line for every row of the table, with a field
   for every column that reads back to the number divided by the unit. *)
Theorem C162_savetxt_reads_back :
  forall cols fmt_18e parse eps P (a : darr (list R)),
  cols <> [] -> faithful_format fmt_18e parse eps P ->
  Forall (fun c => without newline (cname c) /\ without tab (cname c) /\
                   forall u, cunit c = Some u -> without newline u /\ without tab u) cols ->
  Forall (fun c => cfactor c <> 0) cols ->
  Forall (fun row => length row = length cols /\
                     forall j c v, nth_error cols j = Some c -> nth_error row j = Some v ->
                                   P (v / cfactor c)) (data a) ->
  exists first body, lines_of (savetxt fmt_18e cols a) = ("# " ++ first)%string :: body /\
    Forall2 (fun c text => text = match cunit c with
                                  | Some u => if String.eqb u "" then cname c
                                              else (cname c ++ ", " ++ u)%string
                                  | None => cname c
                                  end) cols (split_on tab first) /\
    Forall2 (fun row l =>
      length (split_on tab l) = length cols /\
      forall j c v text, nth_error cols j = Some c -> nth_error row j = Some v ->
        nth_error (split_on tab l) j = Some text ->
        exists y, parse text = Some y /\ Rabs (y * cfactor c - v) <= eps * Rabs v) (data a) body.
Proof.
  intros cols fmt parse eps P a Hne Hf Hn Hu HP.
  set (head := map (fun c => (cname c ++ label ", " c)%string) cols).
  set (row_line := fun row => String.concat tabs (map fmt (cells cols row))).
  assert (HPc : Forall (fun row => Forall P (cells cols row)) (data a)).
  { eapply Forall_impl; [|exact HP]. intros row [Hl Hr]. unfold cells. apply Forall_map.
    rewrite Forall_forall. intros [c v] Hin. cbn [fst snd].
    apply In_nth_error in Hin as [j Hj].
    assert (Hc : nth_error cols j = Some c /\ nth_error row j = Some v).
    { clear -Hj. revert row j Hj. induction cols as [|c' cols IH]; intros [|v' row] [|j] Hj;
        cbn in Hj; try discriminate.
      - injection Hj as -> ->. auto.
      - exact (IH row j Hj). }
    destruct Hc. eauto. }
  assert (Hlab : Forall (fun c => without newline (cname c ++ label ", " c)%string /\
                                  without tab (cname c ++ label ", " c)%string) cols).
  { eapply Forall_impl; [|exact Hn]. intros c (H1 & H2 & H3). unfold label.
    destruct (cunit c) as [[|h u]|] eqn:Eu.
    - rewrite !string_app_nil. auto.
    - destruct (H3 _ eq_refl) as [H4 H5].
      split; apply without_app; auto; split; cbn; try discriminate; cbn in H4, H5; intuition discriminate.
    - rewrite !string_app_nil. auto. }
  exists (String.concat tabs head), (map row_line (data a)).
  assert (Hh : Forall (without tab) head /\ Forall (without newline) head).
  { split; apply Forall_map; eapply Forall_impl; [|exact Hlab| |exact Hlab]; cbn; tauto. }
  split; [|split].
  - replace (savetxt fmt cols a)
      with (terminated (("# " ++ String.concat tabs head)%string :: map row_line (data a))).
    + apply lines_terminated. constructor.
      * change (without newline ("# " ++ String.concat tabs head)%string).
        apply without_app; [cbn; intuition discriminate|].
        apply concat_without; [apply Hh|cbn; intuition discriminate].
      * apply Forall_map. eapply Forall_impl; [|exact HPc]. intros row Hr. unfold row_line.
        apply (cells_without _ _ P); [cbn; intuition discriminate| |exact Hr].
        intros x Hx. now apply Hf.
    + rewrite terminated_cons. unfold savetxt, terminated. rewrite !map_map, string_app_assoc.
      do 4 f_equal. apply map_ext. intros row. unfold row_line, cells. now rewrite map_map.
  - unfold tabs. rewrite split_concat; [|apply Hh|].
    + unfold head. clear. induction cols as [|c cols IH]; cbn [map]; constructor; [|exact IH].
      unfold label. destruct (cunit c) as [[|h u]|]; cbn [String.eqb];
        rewrite ?string_app_nil; reflexivity.
    + unfold head. destruct cols; [easy|discriminate].
  - rewrite Forall_forall in HP, HPc.
    assert (HA : Forall2 (fun row l => l = row_line row) (data a) (map row_line (data a))).
    { clear. induction (data a); cbn; constructor; auto. }
    assert (HB : forall row, In row (data a) ->
      length (split_on tab (row_line row)) = length cols /\
      forall j c v text, nth_error cols j = Some c -> nth_error row j = Some v ->
        nth_error (split_on tab (row_line row)) j = Some text ->
        exists y, parse text = Some y /\ Rabs (y * cfactor c - v) <= eps * Rabs v).
    { intros row Hin. destruct (HP row Hin) as [Hl Hr]. specialize (HPc row Hin).
      assert (HF : Forall2 (legible parse eps) (cells cols row) (split_on tab (row_line row))).
      { apply (split_cells _ P).
        - unfold cells. destruct cols; [easy|]. destruct row; [discriminate Hl|discriminate].
        - intros x Hx. destruct (Hf x Hx) as (H1 & _ & H2). split; auto.
        - exact HPc. }
      split.
      - apply Forall2_len in HF. rewrite <- HF. unfold cells.
        rewrite map_length, combine_length, Hl. lia.
      - intros j c v text Hc Hv Ht.
        assert (Hcell : nth_error (cells cols row) j = Some (v / cfactor c)).
        { unfold cells. clear -Hc Hv. revert row j Hc Hv.
          induction cols as [|c' cols IH]; intros [|v' row] [|j] Hc Hv; cbn in *; try discriminate.
          - now injection Hc as ->; injection Hv as ->.
          - eauto. }
        assert (Hlg : legible parse eps (v / cfactor c) text).
        { clear -HF Hcell Ht. revert j Hcell Ht.
          induction HF as [|x t xs ts Hx HF IH]; intros [|j] H1 H2; cbn in *; try discriminate.
          - injection H1 as <-. injection H2 as <-. exact Hx.
          - eauto. }
        destruct Hlg as (y & Hy & He). exists y. split; [exact Hy|].
        assert (Hcf : cfactor c <> 0).
        { rewrite Forall_forall in Hu. apply Hu. eapply nth_error_In; eauto. }
        replace (y * cfactor c - v) with ((y - v / cfactor c) * cfactor c) by (field; auto).
        replace (eps * Rabs v) with (eps * Rabs (v / cfactor c) * Rabs (cfactor c)).
        + rewrite Rabs_mult. apply Rmult_le_compat_r; [apply Rabs_pos|exact He].
        + rewrite Rmult_assoc, <- Rabs_mult. do 2 f_equal. field. auto. }
    clear -HA HB. induction HA as [|row l rows ls -> HA IH]; constructor.
    + apply HB. now left.
    + apply IH. intros row' H'. apply HB. now right.
Qed.
Print Assumptions C162_savetxt_reads_back.

Example C162_ex :
  let cols := [mkcol "T" (Some "MeV"%string) 2; mkcol "N" None 1] in
  let a := fst (appendrec 0 (names cols) (initrec 0 (names cols)) (RTuple [4; 1])) in
  data a = [[4; 1]] /\
  exists first body, lines_of (savetxt ex_fmt cols a) = ("# " ++ first)%string :: body /\
                     length body = 1%nat /\ split_on tab first = ["T, MeV"; "N"]%string.
Proof.
  intros cols a. assert (Ed : data a = [[4; 1]]) by reflexivity.
  split; [exact Ed|].
  destruct (C162_savetxt_reads_back cols ex_fmt ex_parse 0 ex_num a)
    as (first & body & El & Hh & HF).
  - discriminate.
  - exact ex_format.
  - apply Forall_cons; [|apply Forall_cons; [|apply Forall_nil]]; cbn.
    + repeat split; try discriminate; match goal with H : _ = Some _ |- _ => injection H as <- end;
        cbn; intuition discriminate.
    + repeat split; discriminate.
  - apply Forall_cons; [|apply Forall_cons; [|apply Forall_nil]]; cbn; lra.
  - rewrite Ed. apply Forall_cons; [|apply Forall_nil]. split; [reflexivity|]. intros [|[|j]] c v Hc Hv; cbn in Hc, Hv.
    + injection Hc as <-. injection Hv as <-. right. cbn. lra.
    + injection Hc as <-. injection Hv as <-. left. cbn. lra.
    + destruct j; discriminate.
  - exists first, body. split; [exact El|]. split.
    + apply Forall2_len in HF. rewrite Ed in HF. now rewrite <- HF.
    + inversion Hh as [|? t1 ? ts H1 H2 E1 E2]; subst. inversion H2 as [|? t2 ? ts' H3 H4]; subst.
      inversion H4; subst. reflexivity.
Qed.

(* kawano.import_data on any file: it raises as soon as there is a line of data.
   The exception is a TypeError unless the first field is not even a number. *)
Theorem C163_import_data_raises :
  forall parse leading_int s MeV K9 g_cm3 file first l rest,
  lines_of file = first :: l :: rest -> leading_int first = None \/ leading_int first = Some 0%Z ->
  exists field fields, split_on tab l = field :: fields /\
  import_data parse leading_int (heading s MeV K9 g_cm3) file
  = Raise (match parse field with Some _ => TypeError | None => ValueError end).
Proof.
  intros parse leading_int s MeV K9 g file first l rest El Hi.
  destruct (split_nonempty tab l) as (h & t & E). exists h, t. split; [exact E|].
  unfold import_data, import_with. rewrite El.
  replace (match leading_int first with
           | Some n => if (n =? 0)%Z then l :: rest else tl (l :: rest)
           | None => l :: rest end) with (l :: rest).
  2:{ destruct Hi as [->| ->]; reflexivity. }
  cbn [import_rows]. rewrite E, import_row_lists. destruct (parse h); reflexivity.
Qed.
Print Assumptions C163_import_data_raises.

(* In particular it cannot read the tables that the code itself writes. *)
Theorem C163_import_data_reads_the_table_refuted :
  forall s MeV K9 g_cm3 fmt_e fmt_2e parse leading_int eps P steps,
  0 < s -> 0 < K9 -> faithful_format fmt_e parse eps P ->
  Forall (fun k => length (krates k) = 6%nat) steps ->
  Forall (fun k => Forall P (in_kawano_units s MeV K9 g_cm3 k)) steps ->
  steps <> [] -> (forall rest, leading_int (String "t" (String tab rest)) = None) ->
  let cols := heading s MeV K9 g_cm3 in
  exists a file, rfold (save_step fmt_e fmt_2e cols) (log_init cols) steps = Ok (a, file) /\
    import_data parse leading_int cols file = Raise TypeError.
Proof.
  intros s MeV K9 g fmt_e fmt_2e parse li eps P steps Hs HK Hf H6 HP Hne Hli cols.
  destruct (kawano_file s MeV K9 g fmt_e fmt_2e parse eps P steps Hs HK Hf H6 HP)
    as (a & file & E & _ & body & El & HF).
  exists a, file. split; [exact E|].
  destruct HF as [|k l steps body Hk HF]; [easy|].
  destruct (C163_import_data_raises parse li s MeV K9 g file _ _ _ El) as (h & t & Eh & Er).
  { left. apply Hli. }
  unfold cols. rewrite Er.
  rewrite Eh in Hk. inversion Hk as [|? ? ? ? (y & Hy & _) _]; subst. now rewrite Hy.
Qed.
Print Assumptions C163_import_data_reads_the_table_refuted.

(* With the names of the columns as keys it would: each row becomes a dictionary
   of the twelve columns with the saved numbers. *)
Theorem C163_names_as_keys_would_read_the_table :
  forall s MeV K9 g_cm3 fmt_e fmt_2e parse leading_int eps P steps,
  0 < s -> 0 < K9 -> faithful_format fmt_e parse eps P ->
  Forall (fun k => length (krates k) = 6%nat) steps ->
  Forall (fun k => Forall P (in_kawano_units s MeV K9 g_cm3 k)) steps ->
  (forall rest, leading_int (String "t" (String tab rest)) = None) ->
  let cols := heading s MeV K9 g_cm3 in
  exists a file, rfold (save_step fmt_e fmt_2e cols) (log_init cols) steps = Ok (a, file) /\
    exists rows, import_with parse leading_int (map (fun c => KString (cname c)) cols) file = Ok rows /\
      Forall2 (fun k row => map fst row = map cname cols /\
                 Forall2 (fun v y => Rabs (y - v) <= eps * Rabs v)
                         (in_kawano_units s MeV K9 g_cm3 k) (map snd row)) steps rows.
Proof.
  intros s MeV K9 g fmt_e fmt_2e parse li eps P steps Hs HK Hf H6 HP Hli cols.
  destruct (kawano_file s MeV K9 g fmt_e fmt_2e parse eps P steps Hs HK Hf H6 HP)
    as (a & file & E & _ & body & El & HF).
  exists a, file. split; [exact E|].
  assert (HY : exists yss,
    Forall2 (fun l ys => length (split_on tab l) = length (names cols) /\
                         Forall2 (fun t y => parse t = Some y) (split_on tab l) ys) body yss /\
    Forall2 (fun k ys => Forall2 (fun v y => Rabs (y - v) <= eps * Rabs v)
                                 (in_kawano_units s MeV K9 g k) ys) steps yss).
  { clear E El HP. revert H6. induction HF as [|k l steps body Hk HF IH]; intros H6.
    - exists []. auto.
    - inversion H6 as [|? ? H6k H6s]; subst. destruct (IH H6s) as (yss & H1 & H2).
      destruct (legible_values _ _ _ _ Hk) as (ys & H3 & H4).
      exists (ys :: yss). split; constructor; auto. split; [|exact H3].
      apply Forall2_len in Hk. rewrite <- Hk. unfold in_kawano_units.
      rewrite app_length, H6k. reflexivity. }
  destruct HY as (yss & H1 & H2).
  exists (map (combine (names cols)) yss). split.
  - unfold import_with. rewrite El.
    replace (li (String.concat tabs (names (heading s MeV K9 g)))) with (@None Z)
      by (symmetry; apply Hli).
    replace (map (fun c => KString (cname c)) cols) with (map KString (names cols))
      by (unfold names; now rewrite map_map).
    now apply import_rows_names.
  - clear E El HF HP H1. revert H6. induction H2 as [|k ys steps yss Hk HF IH]; intros H6;
      cbn [map]; constructor.
    + inversion H6 as [|? ? H6k H6s]; subst.
      assert (Hl : length ys = 12%nat).
      { apply Forall2_len in Hk. rewrite <- Hk. unfold in_kawano_units.
        rewrite app_length, H6k. reflexivity. }
      do 13 (destruct ys as [|? ys]; try discriminate Hl). split; [reflexivity|]. exact Hk.
    + apply IH. now inversion H6.
Qed.
Print Assumptions C163_names_as_keys_would_read_the_table.

Example C163_ex :
  let cols := heading 3 5 7 11 in
  exists a file, rfold (save_step ex_fmt ex_fmt cols) (log_init cols) ex_steps = Ok (a, file) /\
    import_data ex_parse (fun _ => None) cols file = Raise TypeError.
Proof.
  apply (C163_import_data_reads_the_table_refuted 3 5 7 11 ex_fmt ex_fmt ex_parse (fun _ => None) 0
           ex_num ex_steps); try lra.
  - exact ex_format.
  - apply ex_steps_ok.
  - apply ex_steps_ok.
  - discriminate.
  - reflexivity.
Qed.
