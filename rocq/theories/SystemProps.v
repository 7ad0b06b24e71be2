(* C170-C172: context managers, log files and output folders. *)
From Verif Require Import Base SystemModel SystemProofs.
Local Notation length := List.length.

(* ------------------------------------------------------------------ *)
(* C170 *)
(* The body of printoptions runs with the options asked for and all others as they
   were; when it ends normally, every option is again what it was, whatever the body
   itself did to the options. *)
Theorem C170_restored : forall V A (kw : list (string * V)) (b : body (options V) A) o,
  NoDup (map fst kw) ->
  exists o1,
    (forall k v, In (k, v) kw -> o1 k = v) /\
    (forall k, ~ In k (map fst kw) -> o1 k = o k) /\
    snd (printoptions kw b o) = snd (b o1) /\
    (forall a, snd (b o1) = Ok a -> forall k, fst (printoptions kw b o) k = o k) /\
    (forall e, snd (b o1) = Raise e -> fst (printoptions kw b o) = fst (b o1)).
Proof.
  intros V A kw b o ND. exists (set_options kw o).
  assert (F : forall k, match find (fun p : string * V => String.eqb (fst p) k) kw with
                        | Some p => In p kw /\ fst p = k
                        | None => ~ In k (map fst kw)
                        end).
  { intro k. clear ND. induction kw as [|[j v] kw IH]; [now cbn|]. cbn [find map fst].
    destruct (String.eqb j k) eqn:E.
    - apply String.eqb_eq in E. split; [now left|exact E].
    - destruct (find (fun p : string * V => String.eqb (fst p) k) kw) as [p|].
      + destruct IH. split; [now right|assumption].
      + intros [Q|Q]; [|easy]. cbn in Q. subst j. rewrite String.eqb_refl in E. discriminate. }
  split; [|split].
  - intros k v H. unfold set_options. specialize (F k).
    destruct (find _ kw) as [[j w]|].
    + destruct F as [F1 F2]. cbn in F2 |- *. subst j. clear b.
      induction kw as [|[j u] kw IH]; [destruct H|]. cbn [map fst] in ND.
      inversion ND as [|? ? N1 N2]; subst.
      destruct H as [H|H], F1 as [F1|F1].
      * congruence.
      * exfalso. apply N1. injection H as -> _. apply (in_map fst) in F1. exact F1.
      * exfalso. apply N1. injection F1 as -> _. apply (in_map fst) in H. exact H.
      * now apply IH.
    + exfalso. apply F. apply (in_map fst) in H. exact H.
  - intros k H. unfold set_options. specialize (F k).
    destruct (find _ kw) as [[j w]|]; [|reflexivity]. exfalso. apply H.
    destruct F as [F1 F2]. cbn in F2. subst j. apply (in_map fst) in F1. exact F1.
  - unfold printoptions. destruct (b (set_options kw o)) as [o2 [a|e]]; cbn [fst snd].
    + split; [reflexivity|]. split; [reflexivity|discriminate].
    + split; [reflexivity|]. split; [discriminate|reflexivity].
Qed.
Print Assumptions C170_restored.

(* "The options are always restored" is false: an exception in the collision
   integrals leaves the three digits of evolution.py:233 in force. *)
Theorem C170_exception_refuted : forall A e,
  let kw := [("precision", 3); ("linewidth", 100)]%string in
  let o := fun k : string => if String.eqb k "precision" then 8 else 75 in
  let after := printoptions kw (fun o => (o, @Raise A e)) o in
  snd after = Raise e /\ fst after "precision"%string = 3 /\ o "precision"%string = 8 /\
  fst after "linewidth"%string = 100 /\ o "linewidth"%string = 75.
Proof. intros A e. repeat split; reflexivity. Qed.
Print Assumptions C170_exception_refuted.

(* benchmark passes on what its body returns or raises, and says one line if asked,
   with the name found after the body and the times before and after it. *)
Theorem C170_benchmark : forall W A T (clock : W -> T) say n show (b : body W A) w,
  snd (benchmark clock say n false b w) = snd (b w) /\
  fst (benchmark clock say n false b w) = fst (b w) /\
  forall w2 s, name_at_exit n (fst (b w)) = (w2, Ok s) -> show = true ->
    snd (benchmark clock say n show b w) = snd (b w) /\
    fst (benchmark clock say n show b w) = say s (clock w) (clock (fst (b w))) w2.
Proof.
  intros W A T clock say n show b w. unfold benchmark.
  destruct (b w) as [w1 r]. cbn [fst snd]. split; [reflexivity|]. split; [reflexivity|].
  intros w2 s H ->. now rewrite H.
Qed.
Print Assumptions C170_benchmark.

(* A name that raises hides what the body returned or raised. *)
Theorem C170_name_refuted : forall W A T (clock : W -> T) say (b : body W A) w e,
  snd (benchmark clock say (Callable (fun w1 => (w1, Raise e))) true b w) = Raise e.
Proof. intros. unfold benchmark. now destruct (b w). Qed.
Print Assumptions C170_name_refuted.

Example C170_example :
  snd (printoptions [("precision", 3)]%string (fun o => (o, Ok (o "precision"%string)))
         (fun _ => 8)) = Ok 3 /\
  fst (printoptions [("precision", 3)]%string (fun o => (o, Ok (o "precision"%string)))
         (fun _ => 8)) "precision"%string = 8 /\
  benchmark (fun w : nat * list (string * nat * nat) => fst w)
            (fun s a b w => (fst w, snd w ++ [(s, a, b)]))
            (Plain "work"%string) true (fun w => ((fst w + 5, snd w), Ok 7)) (1, [])
  = ((6, [("work"%string, 1, 6)]), Ok 7).
Proof. repeat split; reflexivity. Qed.

(* ------------------------------------------------------------------ *)
(* C171 *)
(* After any number of Universes have been made, a printed message is written once
   where it went before and once into the log of every one of them. *)
Theorem C171_tee : forall ks s, sinks (installs ks s) = sinks s ++ map ToLog ks.
Proof. exact installs_sinks. Qed.
Print Assumptions C171_tee.

(* "The log of a Universe holds its own output" is false: the logs of all earlier
   Universes receive it as well. *)
Theorem C171_isolated_refuted : forall ks k s j,
  In j ks -> In (ToLog j) (sinks (install k (installs ks s))).
Proof.
  intros ks k s j H. rewrite install_log. cbn [sinks]. rewrite installs_sinks.
  apply in_or_app. left. apply in_or_app. right. now apply in_map.
Qed.
Print Assumptions C171_isolated_refuted.

(* Output asked to stay off the terminal or off the log does so. *)
Theorem C171_flags : forall k t terminal log x,
  In x (log_write k t terminal log) <->
  (terminal = true /\ In x (sinks t)) \/ (log = true /\ x = ToLog k).
Proof.
  intros k t terminal log x. unfold log_write. rewrite in_app_iff.
  destruct terminal, log; cbn; intuition (try discriminate; auto).
Qed.
Print Assumptions C171_flags.

(* "Assigning sys.stdout redirects the output" is false while a Logger is installed
   to which nothing else refers: its finaliser puts back what it had found. *)
Theorem C171_redirect_refuted : forall k t f,
  set_stdout false (Other f) (Log k t) = t /\
  (~ In (ToOther f) (sinks t) ->
   ~ In (ToOther f) (sinks (set_stdout false (Other f) (Log k t)))).
Proof. intros k t f. split; [reflexivity|]. now cbn. Qed.
Print Assumptions C171_redirect_refuted.

(* It does when the Logger is kept, or when none is installed. *)
Theorem C171_redirect : forall k t new f,
  set_stdout true new (Log k t) = new /\
  set_stdout false new Screen = new /\ set_stdout false new (Other f) = new.
Proof. intros. repeat split; reflexivity. Qed.
Print Assumptions C171_redirect.

Example C171_example :
  sinks (installs [1; 2] Screen) = [ToScreen; ToLog 1; ToLog 2] /\
  set_stdout false (Other 5) (installs [1; 2] Screen) = installs [1] Screen.
Proof. split; reflexivity. Qed.

(* ------------------------------------------------------------------ *)
(* C172 *)
(* Unless an ancestor of the path is a plain file, ensure_dir succeeds: what existed
   is as before, and what is new are directories on the way to the path. *)
Theorem C172_ensure_dir : forall f p, wf f -> p <> [] ->
  (forall q c, is_prefix q p = true -> q <> p -> f q <> Some (File c)) ->
  exists f', ensure_dir f p = inl f' /\
    wf f' /\
    (exists n, f' p = Some n) /\
    (forall q n, f q = Some n -> f' q = Some n) /\
    (forall q n, f q = None -> f' q = Some n -> n = Dir /\ exists r, p = q ++ r).
Proof.
  intros f p W NE NF. destruct (ensure_dir_ok f p W NE NF) as [f' [E F]].
  exists f'. split; [exact E|]. split; [now apply (filled_wf f p)|].
  split; [|split].
  - rewrite F. unfold filled. destruct (f p) as [n|]; [now exists n|].
    rewrite is_prefix_refl. destruct p; [easy|now exists Dir].
  - intros q n H. rewrite F. unfold filled. now rewrite H.
  - intros q n H H'. rewrite F in H'. unfold filled in H'. rewrite H in H'.
    destruct q as [|a q]; [discriminate|]. destruct (is_prefix (a :: q) p) eqn:PR; [|discriminate].
    split; [congruence|]. now apply is_prefix_spec.
Qed.
Print Assumptions C172_ensure_dir.

Theorem C172_blocked : forall f p q c, wf f ->
  is_prefix q p = true -> q <> p -> f q = Some (File c) ->
  ensure_dir f p = inr NotADirectory.
Proof.
  intros f p q c W PR NQ Fq. unfold ensure_dir. rewrite exists_path_spec by exact W.
  destruct (f p) as [n|] eqn:E.
  - exfalso. apply is_prefix_spec in PR. destruct PR as [r ->].
    destruct r as [|y r]; [rewrite app_nil_r in NQ; easy|].
    destruct (W _ _ Fq) as [Q _].
    rewrite (wf_ancestors f W (y :: r) q n Q) in Fq; [discriminate|discriminate|exact E].
  - now apply (makedirs_blocked _ _ _ q c).
Qed.
Print Assumptions C172_blocked.

(* "ensure_dir returns a directory" is false: a plain file at the path is accepted. *)
Theorem C172_file_refuted : forall f p c, p <> [] -> f p = Some (File c) ->
  ensure_dir f p = inl f.
Proof.
  intros f p c NE H. unfold ensure_dir, exists_path. destruct p; [easy|]. now rewrite H.
Qed.
Print Assumptions C172_file_refuted.

(* "ensure_path prepares any path" is false: a bare file name has no directory. *)
Theorem C172_bare_refuted : forall f x, ensure_path f [x] = inr FileNotFound.
Proof. reflexivity. Qed.
Print Assumptions C172_bare_refuted.

(* A new Universe has in its folder an empty log and nothing else; elsewhere nothing is
   lost, and only directories on the way to the folder are added. *)
Theorem C172_universe : forall f folder, wf f -> folder <> [] ->
  (forall q c, is_prefix q folder = true -> f q <> Some (File c)) ->
  exists f', universe_folder f folder = inl f' /\
    f' folder = Some Dir /\
    f' (folder ++ ["log.txt"%string]) = Some (File EmptyString) /\
    (forall r, r <> [] -> r <> ["log.txt"%string] -> f' (folder ++ r) = None) /\
    (forall q n, ~ (exists r, q = folder ++ r) -> f q = Some n -> f' q = Some n) /\
    (forall q n, ~ (exists r, q = folder ++ r) -> f q = None -> f' q = Some n ->
       n = Dir /\ exists r, folder = q ++ r).
Proof.
  intros f folder W NE NF. destruct (universe_ok f folder W NE NF) as [f' [E F]].
  exists f'. split; [exact E|]. split; [|split; [|split; [|split]]].
  - rewrite F. unfold after_universe. now rewrite path_eqb_refl.
  - rewrite F. unfold after_universe. rewrite path_eqb_refl.
    destruct (path_eqb (folder ++ ["log.txt"%string]) folder) eqn:Q; [|reflexivity].
    apply path_eqb_spec in Q. apply (f_equal (@List.length string)) in Q.
    rewrite app_length in Q. cbn in Q. lia.
  - intros r R1 R2. rewrite F. unfold after_universe.
    destruct (path_eqb (folder ++ r) folder) eqn:Q.
    { apply path_eqb_spec in Q. exfalso. apply R1.
      apply (f_equal (@List.length string)) in Q. rewrite app_length in Q.
      destruct r; [reflexivity|cbn in Q; lia]. }
    destruct (path_eqb (folder ++ r) (folder ++ ["log.txt"%string])) eqn:Q2.
    { apply path_eqb_spec, app_inv_head in Q2. easy. }
    rewrite (proj2 (is_prefix_spec folder (folder ++ r))); [reflexivity|now exists r].
  - intros q n NP H. rewrite F. unfold after_universe.
    destruct (path_eqb q folder) eqn:Q.
    { apply path_eqb_spec in Q. exfalso. apply NP. exists []. now rewrite app_nil_r. }
    destruct (path_eqb q (folder ++ ["log.txt"%string])) eqn:Q2.
    { apply path_eqb_spec in Q2. exfalso. apply NP. now exists ["log.txt"%string]. }
    destruct (is_prefix folder q) eqn:PR; [apply is_prefix_spec in PR; easy|].
    unfold filled. now rewrite H.
  - intros q n NP H H'. rewrite F in H'. unfold after_universe in H'.
    destruct (path_eqb q folder) eqn:Q.
    { apply path_eqb_spec in Q. exfalso. apply NP. exists []. now rewrite app_nil_r. }
    destruct (path_eqb q (folder ++ ["log.txt"%string])) eqn:Q2.
    { apply path_eqb_spec in Q2. exfalso. apply NP. now exists ["log.txt"%string]. }
    destruct (is_prefix folder q) eqn:PR; [discriminate|].
    unfold filled in H'. rewrite H in H'. destruct q as [|a q]; [discriminate|].
    destruct (is_prefix (a :: q) folder) eqn:PR2; [|discriminate].
    split; [congruence|now apply is_prefix_spec].
Qed.
Print Assumptions C172_universe.

(* "The results of an earlier run survive" is false: a second Universe with the same
   folder removes every file of the first. *)
Theorem C172_kept_refuted : forall f folder r c, wf f -> folder <> [] ->
  (forall q c, is_prefix q folder = true -> f q <> Some (File c)) ->
  r <> ["log.txt"%string] -> f (folder ++ r) = Some (File c) ->
  exists f', universe_folder f folder = inl f' /\ f' (folder ++ r) = None.
Proof.
  intros f folder r c W NE NF NR H.
  destruct (C172_universe f folder W NE NF) as [f' [E [_ [_ [R _]]]]].
  exists f'. split; [exact E|]. apply R; [|exact NR].
  intros ->. rewrite app_nil_r in H. apply (NF folder c); [apply is_prefix_refl|exact H].
Qed.
Print Assumptions C172_kept_refuted.

(* A plain file in the way, or in place of the folder, is an error. *)
Theorem C172_universe_blocked : forall f folder q c, wf f ->
  is_prefix q folder = true -> f q = Some (File c) ->
  universe_folder f folder = inr NotADirectory.
Proof. exact universe_blocked. Qed.
Print Assumptions C172_universe_blocked.

Definition sample_fs : fs := fun p =>
  if path_eqb p ["out"%string] then Some Dir
  else if path_eqb p ["out"; "a"]%string then Some Dir
  else if path_eqb p ["out"; "a"; "evolution.txt"]%string then Some (File "1 2 3"%string)
  else if path_eqb p ["notes"]%string then Some (File "x"%string)
  else None.

Example C172_example :
  wf sample_fs /\
  (exists f', universe_folder sample_fs ["out"; "a"]%string = inl f' /\
     f' ["out"; "a"; "evolution.txt"]%string = None /\
     f' ["out"; "a"; "log.txt"]%string = Some (File EmptyString) /\
     f' ["notes"]%string = Some (File "x"%string)) /\
  ensure_dir sample_fs ["notes"; "b"]%string = inr NotADirectory /\
  (exists f', ensure_dir sample_fs ["new"; "b"; "c"]%string = inl f' /\
     f' ["new"]%string = Some Dir /\ f' ["new"; "b"; "c"]%string = Some Dir /\
     f' ["new"; "c"]%string = None).
Proof.
  split; [|split; [|split]].
  - intros p n H. unfold sample_fs in H.
    destruct (path_eqb p ["out"%string]) eqn:E1;
      [apply path_eqb_spec in E1; subst p; now split|].
    destruct (path_eqb p ["out"; "a"]%string) eqn:E2;
      [apply path_eqb_spec in E2; subst p; now split|].
    destruct (path_eqb p ["out"; "a"; "evolution.txt"]%string) eqn:E3;
      [apply path_eqb_spec in E3; subst p; now split|].
    destruct (path_eqb p ["notes"%string]) eqn:E4; [|discriminate].
    apply path_eqb_spec in E4; subst p; now split.
  - eexists. split; [vm_compute; reflexivity|]. repeat split; reflexivity.
  - reflexivity.
  - eexists. split; [vm_compute; reflexivity|]. repeat split; reflexivity.
Qed.
