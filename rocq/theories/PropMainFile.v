(** * PropMainFile: what the source file is called (C90). *)
From Verif Require Import Base BaseProofs Csvp SourceCode Ast AstParser Eval Options CellParser Sheet Loader LoaderSpec Files MainFile PropCell PropSheet PropVariables PropLoader PropCache PropModules PropCompile SameLoad PropFiles PropEdit.

(** no object file is of use for [f]: there is none, or it cannot be read, or it was made from [f] before [f] was last changed *)
Definition to_be_read (D : folder) (f : str) : Prop :=
  match fo_objects D (object_name f) with
  | Some (ODecoded m, t) => m_file m = [f] /\ exists text t', fo_sources D f = Some (text, t') /\ t < t'
  | _ => True
  end.
(** the same outcome, but for the name of the file in messages *)
Definition same_but_name (r r' : outcome compile_error module) : Prop :=
  match r, r' with
  | Ok m, Ok m' => m_program m' = m_program m
  | Err (MainNotLoaded (BadSource _ e)), Err (MainNotLoaded (BadSource _ e')) => e' = e
  | Err (MainEval e), Err (MainEval e') => e' = e
  | Panic, Panic | NoFuel, NoFuel => True
  | _, _ => False
  end.
Lemma read_load E D f : to_be_read D f -> folder_load E D f = folder_source E D f.
Proof.
  unfold to_be_read, folder_load. destruct (fo_objects D (object_name f)) as [[[m|] t]|] eqn:O; try reflexivity. intros [Mf [text [t' [So T]]]].
  unfold folder_check, recorded. rewrite Mf, O, So. destruct (Nat.ltb_spec t t'); [|lia]. reflexivity.
Qed.
(** what is delivered for the text of a program without imports *)
Definition outcome_of (E : env) (args : list (str * node)) (text : str) (r : outcome compile_error module) : Prop :=
  match load_source (e_co E) text with
  | Ok p => match main_eval (e_sheet E) (e_sched E) p args with
            | Ok q => exists m, r = Ok m /\ m_program m = q
            | Err e => r = Err (MainEval e)
            | Panic => r = Panic
            | NoFuel => r = NoFuel
            end
  | Err e => exists f, r = Err (MainNotLoaded (BadSource f e))
  | Panic => r = Panic
  | NoFuel => False
  end.
Lemma folder_outcome E uc args f D r text t : fo_sources D f = Some (text, t) -> to_be_read D f -> (uc = true -> e_writable E [f] = true) ->
  folder_runs E uc args f D r -> outcome_of E args text (fst r).
Proof.
  intros So Rd W [m Lm Rq|e Lm|Lm]; rewrite (read_load _ _ _ Rd) in Lm; unfold folder_source in Lm; rewrite So in Lm; unfold outcome_of; destruct (load_source (e_co E) text) as [p|e1| |]; try discriminate Lm.
  - injection Lm as <-. cbn [m_needs_eval with_flags]. unfold folder_finish. cbn [m_needs_eval with_flags m_program].
    destruct (main_eval _ _ p args) as [q|e| |]; cbn [fst]; try reflexivity. unfold folder_write. cbn [m_file with_flags with_program].
    destruct uc; [rewrite (W eq_refl)|]; cbn [fst]; eexists; split; reflexivity.
  - injection Lm as <-. cbn [fst]. eauto.
  - reflexivity.
Qed.
Lemma outcomes_same E args text r r' : outcome_of E args text r -> outcome_of E args text r' -> same_but_name r r'.
Proof.
  unfold outcome_of. destruct (load_source (e_co E) text) as [p|e1| |].
  - destruct (main_eval _ _ p args) as [q|e| |].
    + intros [m [-> Hm]] [m' [-> Hm']]. cbn. congruence.
    + intros -> ->. reflexivity.
    + intros -> ->. exact I.
    + intros -> ->. exact I.
  - intros [f ->] [f' ->]. reflexivity.
  - intros -> ->. exact I.
  - intros [].
Qed.
(** A program without imports gives the same output or error whatever its file is called, with whatever extension. *)
Theorem C90_any_name_partial : forall E use_cache args f f' D D' text t t' r r',
  fo_sources D f = Some (text, t) -> to_be_read D f -> fo_sources D' f' = Some (text, t') -> to_be_read D' f' ->
  (use_cache = true -> e_writable E [f] = true /\ e_writable E [f'] = true) ->
  folder_runs E use_cache args f D r -> folder_runs E use_cache args f' D' r' -> same_but_name (fst r) (fst r').
Proof.
  intros E uc args f f' D D' text t t' r r' So Rd So' Rd' W C C'. apply (outcomes_same E args text).
  - eapply folder_outcome; [exact So|exact Rd|intro U; apply (W U)|exact C].
  - eapply folder_outcome; [exact So'|exact Rd'|intro U; apply (W U)|exact C'].
Qed.
Print Assumptions C90_any_name_partial.
(** and what C01-C89 say about the module [name] holds for it: the outcome is that of [compiles] for a file of that text *)
Theorem C90_as_module_partial : forall E use_cache args f D name F text p t t' r r',
  load_source (e_co E) text = Ok p -> pr_required p = [] ->
  fo_sources D f = Some (text, t) -> to_be_read D f -> sources F [name] = Some (text, t') -> no_object F [name] \/ older_object F [name] ->
  (use_cache = true -> e_writable E [f] = true /\ e_writable E [name] = true) ->
  folder_runs E use_cache args f D r -> compiles E use_cache args name F r' -> same_but_name (fst r) (fst r').
Proof.
  intros E uc args f D name F text p t t' r r' Ld Rq So Rd So' No W C C'. apply (outcomes_same E args text); [eapply folder_outcome; [exact So|exact Rd|intro U; apply (W U)|exact C]|].
  pose proof (load_as_main E F name text t' p No So' Ld) as Lm. destruct C' as [m sh th order L1 R1 O1|e L1|L1]; rewrite Lm in L1; try discriminate L1. assert (E1 : m = as_main E name p) by congruence. subst m.
  rewrite compile_no_imports by (try assumption; exact Rq). set (mm := with_flags _ _ _). assert (Mp : m_program mm = p) by (destruct p; reflexivity). assert (Mf : m_file mm = [name]) by reflexivity. assert (Mn : m_needs_eval mm = true) by reflexivity. clearbody mm.
  unfold finish, outcome_of. rewrite Ld, Mn, Mp.
  destruct (main_eval _ _ p args) as [q|e| |]; cbn [fst]; try reflexivity. unfold write_object. cbn [m_file with_flags with_program]. rewrite Mf.
  destruct uc; [rewrite (proj2 (W eq_refl))|]; cbn [fst]; eexists; split; reflexivity.
Qed.
Print Assumptions C90_as_module_partial.
(** such a run exists *)
Lemma runs_exist E uc args f D text t p : fo_sources D f = Some (text, t) -> to_be_read D f -> load_source (e_co E) text = Ok p -> pr_required p = [] -> exists r, folder_runs E uc args f D r.
Proof.
  intros So Rd Ld Rq. eexists. eapply fr_run; [rewrite (read_load _ _ _ Rd); unfold folder_source; rewrite So, Ld; reflexivity|exact Rq].
Qed.

(** The module of the file [name.ext] is called [name], and what is compiled from it is kept in [name.csvpo]. *)
Theorem C90_called : forall E args name ext D m D', name <> [] -> ~ In c_dot ext -> to_be_read D (name ++ c_dot :: ext) ->
  folder_runs E true args (name ++ c_dot :: ext) D (Ok m, D') -> m_path m = [name] /\ fo_objects D' (name ++ lit ".csvpo") = Some (ODecoded m, e_now E).
Proof.
  intros E args name ext D m D' Hn He Rd C.
  assert (Sx : forall e, set_extension e (name ++ c_dot :: ext) = name ++ match e with [] => [] | _ => c_dot :: e end).
  { intro e. unfold set_extension, stem_and_extension. rewrite last_dot_app by exact He. destruct name; [contradiction|reflexivity]. }
  inversion C as [m0 Lm Rq Q|e Lm|Lm]. rewrite (read_load _ _ _ Rd) in Lm. unfold folder_source in Lm. destruct (fo_sources D _) as [[text t]|]; [|discriminate Lm]. destruct (load_source (e_co E) text) as [p| | |]; try discriminate Lm.
  injection Lm as <-. unfold folder_finish in Q. cbn [m_needs_eval with_flags m_program] in Q. destruct (main_eval _ _ p args) as [q| | |] eqn:Ev; try discriminate Q. unfold folder_write in Q. cbn [m_file with_flags with_program] in Q.
  destruct (e_writable E _); [|discriminate Q]. apply pair_equal_spec in Q as [Q1 <-]. injection Q1 as <-. split.
  - unfold main_path. rewrite Sx, app_nil_r. reflexivity.
  - cbn [fo_objects recorded m_file with_flags with_program]. unfold object_name. rewrite Sx. change (match lit "csvpo" with [] => [] | _ => c_dot :: lit "csvpo" end) with (lit ".csvpo"). destruct (str_eqb_spec (name ++ lit ".csvpo") (name ++ lit ".csvpo")) as [_|K]; [reflexivity|destruct (K eq_refl)].
Qed.
Print Assumptions C90_called.

(** Compiling one file leaves the compilation of every other alone, as long as the two have different names without the extension. *)
Definition own_object (D : folder) (f : str) : Prop :=
  match fo_objects D (object_name f) with Some (ODecoded m, _) => object_name (recorded m) = object_name f | _ => True end.
Lemma written_object E uc args g D r : own_object D g -> folder_runs E uc args g D r ->
  fo_sources (snd r) = fo_sources D /\ (forall o, o <> object_name g -> fo_objects (snd r) o = fo_objects D o).
Proof.
  intros Ow C. assert (X : forall m, folder_load E D g = Ok m -> object_name (recorded m) = object_name g).
  { intros m Lm. unfold folder_load in Lm. unfold own_object in Ow. unfold folder_source in Lm.
    assert (Sr : match fo_sources D g with Some (text, _) => match load_source (e_co E) text with Ok prog => Ok {| m_version := e_version E; m_path := main_path g; m_program := prog; m_file := [g]; m_dirty := false; m_needs_eval := true |} | Err e => Err (BadSource [g] e) | Panic => Panic | NoFuel => NoFuel end | None => Err (Unreadable [g]) end = Ok m -> object_name (recorded m) = object_name g).
    { destruct (fo_sources D g) as [[text t]|]; [|discriminate]. destruct (load_source (e_co E) text); try discriminate. intro J. injection J as <-. reflexivity. }
    destruct (fo_objects D (object_name g)) as [[[m0|] t]|]; [|apply Sr; exact Lm..].
    unfold folder_check in Lm. rewrite Ow in Lm. destruct (fo_objects D (object_name g)) as [[ob t1]|]; [|discriminate Lm]. destruct (fo_sources D (recorded m0)) as [[tx t2]|]; [|discriminate Lm].
    destruct (t1 <? t2); cbn [bind with_flags m_dirty] in Lm; [apply Sr; exact Lm|]. destruct (e_version E <? m_version m0); [apply Sr; exact Lm|]. injection Lm as <-. exact Ow. }
  destruct C as [m Lm Rq|e Lm|Lm]; [|cbn [snd]; auto..]. specialize (X m Lm). unfold folder_finish. cbn [m_needs_eval with_flags m_program].
  destruct (m_needs_eval m); [|cbn [snd]; auto]. destruct (main_eval _ _ _ args) as [q|e| |]; cbn [snd]; auto. destruct uc; [|cbn [snd]; auto]. unfold folder_write. cbn [m_file with_program with_flags].
  destruct (e_writable E (m_file m)); cbn [snd fo_sources fo_objects]; auto. split; [reflexivity|]. intros o N. unfold recorded in *. cbn [m_file with_flags with_program]. rewrite X.
  destruct (str_eqb_spec o (object_name g)); [contradiction|reflexivity].
Qed.
Theorem C90_other_files_partial : forall E E' use_cache use_cache' args args' f g D r D', object_name f <> object_name g -> own_object D f -> own_object D g ->
  folder_runs E use_cache args g D (r, D') ->
  forall r1, folder_runs E' use_cache' args' f D r1 -> exists D1, folder_runs E' use_cache' args' f D' (fst r1, D1).
Proof.
  intros E E' uc uc' args args' f g D r D' N Of Og C r1 C1. destruct (written_object _ _ _ _ _ _ Og C) as [Hs Ho]. cbn [snd] in Hs, Ho. specialize (Ho _ N).
  assert (L : folder_load E' D' f = folder_load E' D f).
  { unfold folder_load, folder_source. rewrite Ho, Hs. unfold own_object in Of. destruct (fo_objects D (object_name f)) as [[[m|] t]|] eqn:O; try reflexivity. unfold folder_check. rewrite Of, Ho, O, Hs. reflexivity. }
  destruct C1 as [m Lm Rq|e Lm|Lm].
  - rewrite <- L in Lm. exists (snd (folder_finish E' uc' args' (with_flags m false (m_needs_eval m)) D')).
    replace (fst (folder_finish E' uc' args' (with_flags m false (m_needs_eval m)) D)) with (fst (folder_finish E' uc' args' (with_flags m false (m_needs_eval m)) D')).
    + rewrite <- surjective_pairing. apply fr_run; assumption.
    + unfold folder_finish. cbn [m_needs_eval with_flags m_program]. destruct (m_needs_eval m); [|reflexivity]. destruct (main_eval _ _ _ args') as [q|e| |]; try reflexivity. destruct uc'; [|reflexivity].
      unfold folder_write. cbn [m_file with_program with_flags]. destruct (e_writable E' (m_file m)); reflexivity.
  - exists D'. apply fr_failed. rewrite L. exact Lm.
  - exists D'. apply fr_panic. rewrite L. exact Lm.
Qed.
Print Assumptions C90_other_files_partial.
(** C90 refuted: of two files whose names differ in the extension only, the one that was compiled first is what compiling the other gives,
    whatever that holds - even if it does not exist. *)
Theorem C90_same_stem_refuted : forall E args f g D m D', object_name f = object_name g -> to_be_read D f ->
  (forall text t, fo_sources D f = Some (text, t) -> t <= e_now E) ->
  folder_runs E true args f D (Ok m, D') ->
  forall E' use_cache args', e_version E <= e_version E' -> exists m', folder_runs E' use_cache args' g D' (Ok m', D') /\ m_program m' = m_program m.
Proof.
  intros E args f g D m D' Og Rd T C E' uc args' V. assert (X : fo_objects D' (object_name f) = Some (ODecoded m, e_now E) /\ m_file m = [f] /\ fo_sources D' = fo_sources D /\ m_requires m = [] /\ m_needs_eval m = false /\ m_version m = e_version E /\ exists text t, fo_sources D f = Some (text, t)).
  { inversion C as [m0 Lm Rq Q|e Lm|Lm]. rewrite (read_load _ _ _ Rd) in Lm. unfold folder_source in Lm. destruct (fo_sources D f) as [[text t]|]; [|discriminate Lm]. destruct (load_source (e_co E) text) as [p| | |]; try discriminate Lm.
    injection Lm as <-. unfold folder_finish in Q. cbn [m_needs_eval with_flags m_program] in Q. destruct (main_eval _ _ p args) as [q| | |] eqn:Ev; try discriminate Q. unfold folder_write in Q. cbn [m_file with_flags with_program] in Q.
    destruct (e_writable E [f]); [|discriminate Q]. apply pair_equal_spec in Q as [Q1 <-]. injection Q1 as <-. cbn [fo_objects fo_sources m_file with_flags with_program recorded m_needs_eval m_version m_requires m_program].
    destruct (str_eqb_spec (object_name f) (object_name f)) as [_|K]; [|destruct (K eq_refl)]. split; [reflexivity|]. split; [reflexivity|]. split; [reflexivity|]. split; [|split; [reflexivity|split; [reflexivity|eauto]]].
    unfold m_requires in *. cbn [m_program] in *. unfold main_eval, module_eval_fills in Ev. destruct (eval_fills (pr_sheet p)) as [s|]; cbn [bind] in Ev; [|discriminate Ev]. unfold eval_spreadsheet in Ev. cbv zeta in Ev.
    destruct (par_collect _ _) as [rows| | |]; cbn [bind] in Ev; try discriminate Ev. injection Ev as <-. exact Rq. }
  destruct X as [Ob [Mf [Hs [Rq [Ne [Mv [text [t So]]]]]]]]. specialize (T _ _ So).
  exists (with_flags (with_flags m false false) false false). split; [|reflexivity].
  replace (Ok (with_flags (with_flags m false false) false false), D') with (folder_finish E' uc args' (with_flags (with_flags m false false) false (m_needs_eval (with_flags m false false))) D') by reflexivity.
  apply fr_run; [|exact Rq]. unfold folder_load. rewrite <- Og, Ob. unfold folder_check, recorded. rewrite Mf, Ob, Hs, So. destruct (Nat.ltb_spec (e_now E) t); [lia|]. rewrite Ne, Mv.
  destruct (Nat.ltb_spec (e_version E') (e_version E)); [lia|]. reflexivity.
Qed.
Print Assumptions C90_same_stem_refuted.

(** ** Examples *)
Definition ex_folder (l : list (string * string * nat)) : folder :=
  {| fo_sources := fun f => option_map (fun x => (lit (snd (fst x)), snd x)) (find (fun x => str_eqb f (lit (fst (fst x)))) l); fo_objects := fun _ => None |}.
Definition ex_sheet : string := "rate := 2" ++ nl ++ "---" ++ nl ++ "[[var=x]]3,=x * rate".
Definition ex_pair : folder := ex_folder [("report.csv", "1,=1 + 1", 1); ("report.2024.csvpp", ex_sheet, 2); ("report", ex_sheet, 3); ("report.csvpp", ex_sheet, 1)]%string.
Definition folder_texts (r : outcome compile_error module * folder) : outcome compile_error (list (list str)) := texts (fst r).
Definition ex_loaded (D : folder) (f : string) : module := match folder_load (ex_E 5) D (lit f) with Ok m => m | _ => ex_main (ex_one "") end.
Definition ex_folder_run (D : folder) (f : string) := folder_finish (ex_E 5) true [] (with_flags (ex_loaded D f) false (m_needs_eval (ex_loaded D f))) D.
Example C90_nonvacuous :
  map (fun f => object_name (lit f)) ["report.csv"; "report.2024.csvpp"; "report"; "report.csvpp"]%string = map lit ["report.csvpo"; "report.2024.csvpo"; "report.csvpo"; "report.csvpo"]%string
  /\ (forall f, to_be_read ex_pair f /\ own_object ex_pair f)
  /\ (forall f, In f ["report.2024.csvpp"; "report"; "report.csvpp"]%string ->
        folder_runs (ex_E 5) true [] (lit f) ex_pair (ex_folder_run ex_pair f) /\ folder_texts (ex_folder_run ex_pair f) = Ok [[lit "3"; lit "=(A1 * 2)"]])
  /\ (exists r, folder_runs (ex_E 5) true [] (lit "report.csv") ex_pair r /\ folder_texts r = Ok [[lit "1"; lit "=(1 + 1)"]])
  /\ (exists D r, folder_runs (ex_E 5) true [] (lit "report.csvpp") ex_pair (fst (ex_folder_run ex_pair "report.csvpp"), D)
        /\ folder_runs (ex_E 5) true [] (lit "report.csv") D r /\ folder_texts r = Ok [[lit "3"; lit "=(A1 * 2)"]]).
Proof.
  split; [vm_compute; reflexivity|]. split; [intro f; split; exact I|]. split.
  { intros f [<-|[<-|[<-|[]]]]; (split; [apply fr_run; vm_compute; reflexivity|vm_compute; reflexivity]). }
  split.
  { exists (ex_folder_run ex_pair "report.csv"). split; [apply fr_run; vm_compute; reflexivity|vm_compute; reflexivity]. }
  set (r0 := ex_folder_run ex_pair "report.csvpp"). exists (snd r0), (ex_folder_run (snd r0) "report.csv"). split; [rewrite <- surjective_pairing; apply fr_run; vm_compute; reflexivity|].
  split; [apply fr_run; vm_compute; reflexivity|vm_compute; reflexivity].
Qed.
