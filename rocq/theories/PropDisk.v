(** * PropDisk: what a run can change on the disk (C94). *)
From Verif Require Import Base BaseProofs Csvp SourceCode Ast AstParser Eval Options CellParser Sheet Loader LoaderSpec LoaderProofs LoaderProofs3 Targets Files Cli MainFile PropCell PropSheet PropVariables PropLoader PropCache PropModules PropCompile PropFiles PropCli PropEdit PropMainFile.

(** the files of a program: the main module's, and those of the modules that are imported, directly or not *)
Inductive program_file (E : env) (use_cache : bool) (name : str) (S : fs) : file -> Prop :=
| pf_main : program_file E use_cache name S [name]
| pf_import main p r : load_from_cache_from_filename E S [name] [name] = Ok main -> reachable (load_one E S use_cache) main p r ->
    program_file E use_cache name S (filename_relative_to p r).
(** [f] was written as the object file of a module of that file, now *)
Definition written_now (E : env) (S' : fs) (f : file) : Prop := exists m, objects S' f = Some (ODecoded m, e_now E) /\ m_file m = f.

Lemma source_file E F p f m : load_from_source E F p f = Ok m -> m_file m = f.
Proof.
  unfold load_from_source. destruct (sources F f) as [[text t]|]; [|discriminate]. destruct (load_source (e_co E) text); try discriminate. intro H. injection H as <-. reflexivity.
Qed.
Lemma checked_file E F m m' : check_if_is_dirty E F m = Ok m' -> m_file m' = m_file m.
Proof.
  unfold check_if_is_dirty. destruct (objects F (m_file m)) as [[o t]|]; [|discriminate]. destruct (sources F (m_file m)) as [[x t']|]; [|discriminate]. destruct (t <? t'); intro H; injection H as <-; reflexivity.
Qed.
Lemma loaded_file E F uc p r m : objects_in_place F -> load_one E F uc p r = Ok m -> m_file m = filename_relative_to p r.
Proof.
  intros O H. unfold load_one in H. destruct uc; [|eapply source_file; exact H]. unfold load_from_cache, load_from_object in H.
  destruct (objects F (filename_relative_to p r)) as [[[m0|] t]|] eqn:Ob; [|eapply source_file; exact H..]. rewrite (checked_file _ _ _ _ H). exact (O _ _ _ Ob).
Qed.
Lemma main_file E F name m : objects_in_place F -> load_from_cache_from_filename E F [name] [name] = Ok m -> m_file m = [name].
Proof.
  intros O H. unfold load_from_cache_from_filename, load_from_object in H. destruct (objects F [name]) as [[[m0|] t]|] eqn:Ob; [|eapply source_file; exact H..].
  destruct (check_if_is_dirty E F m0) as [m1| | |] eqn:Ck; cbn [bind] in H; try discriminate H. destruct (m_dirty m1); [eapply source_file; exact H|]. injection H as <-. rewrite (checked_file _ _ _ _ Ck). exact (O _ _ _ Ob).
Qed.

Section Disk.
  Context (E : env) (uc : bool) (name : str) (S : fs).
  Notation ours := (program_file E uc name S).
  (** the state of the files during the run *)
  Definition kept (G : fs) : Prop :=
    sources G = sources S /\ (forall f, objects G f = objects S f \/ uc = true /\ e_writable E f = true /\ ours f /\ written_now E G f).
  Lemma kept_start : kept S. Proof. split; [reflexivity|auto]. Qed.
  Lemma kept_write G m G' : uc = true -> kept G -> ours (m_file m) -> write_object E G m = Some G' -> kept G'.
  Proof.
    intros U [Ks Ko] O H. unfold write_object in H. destruct (e_writable E (m_file m)) eqn:W; [|discriminate]. injection H as <-. split; [exact Ks|]. cbn [objects]. intro f. unfold written_now. cbn [objects].
    destruct (LoaderProofs.path_eqb_spec f (m_file m)) as [->|_]; [|exact (Ko f)]. right. split; [exact U|]. split; [exact W|]. split; [exact O|]. eauto.
  Qed.
  Lemma kept_in_order : forall order ld scopes G, (forall p m, passoc p ld = Some m -> ours (m_file m)) -> kept G -> kept (snd (eval_in_order E uc order ld scopes G)).
  Proof.
    induction order as [|p order IH]; intros ld scopes G L K; cbn [eval_in_order]; [exact K|]. destruct (passoc p ld) as [m|] eqn:Lm; [|apply IH; assumption].
    destruct (negb (m_needs_eval m)); [apply IH; assumption|]. destruct (merge_scopes _ _ _) as [sc|]; [|exact K]. destruct (eval_scope E p sc) as [sc'| | |]; try exact K. cbv zeta.
    assert (L' : forall q m', passoc q (pinsert p (with_scope m sc') ld) = Some m' -> ours (m_file m')).
    { intros q m' H. destruct (LoaderProofs.path_eqb_spec q p) as [->|N].
      - rewrite passoc_insert_same in H. injection H as <-. exact (L _ _ Lm).
      - rewrite passoc_insert_other in H by exact N. exact (L _ _ H). }
    destruct (Bool.bool_dec uc true) as [U|U]; [|apply Bool.not_true_is_false in U]; rewrite U at 1; [|apply IH; assumption].
    destruct (write_object E G (with_scope m sc')) as [G'|] eqn:W; [|exact K]. apply IH; [exact L'|].
    eapply kept_write; [exact U|exact K| |exact W]. exact (L _ _ Lm).
  Qed.
  Lemma kept_compiles kv r S' : objects_in_place S -> compiles E uc kv name S (r, S') -> kept S'.
  Proof.
    intros O C. inversion C as [main sh t order Lm R Or Q| |]; subst; [|apply kept_start..].
    assert (L : forall p m, passoc p (loaded sh) = Some m -> ours (m_file m)).
    { intros p m Hp. destruct R as [R _]. destruct (sourced_run _ _ _ _ R) as [_ [Sl _]]. destruct (Sl _ _ (passoc_In _ _ _ Hp)) as [r' [R' Eq]]. rewrite (loaded_file _ _ _ _ _ _ O Eq). eapply pf_import; eassumption. }
    pose proof (kept_in_order order (loaded sh) (map (fun pm => (fst pm, m_scope (snd pm))) (loaded sh)) S L kept_start) as K.
    unfold compile_with in Q. destruct (panicked t); [apply pair_equal_spec in Q as [_ <-]; apply kept_start|]. unfold load_main, eval_dependencies in Q.
    destruct (any_dirty main (loaded sh)); [apply pair_equal_spec in Q as [_ <-]; apply kept_start|].
    destruct (eval_in_order E uc order (loaded sh) _ S) as [r1 G]. cbn [snd] in K. destruct r1 as [ld| | |]; try (apply pair_equal_spec in Q as [_ <-]; exact K).
    unfold merge_direct_dependencies in Q. destruct (failed sh) as [|x l]; [|apply pair_equal_spec in Q as [_ <-]; exact K].
    destruct (merge_required _ _ _) as [sc|]; [|apply pair_equal_spec in Q as [_ <-]; exact K]. unfold finish in Q.
    destruct (m_needs_eval (with_flags _ _ _)); [|apply pair_equal_spec in Q as [_ <-]; exact K].
    destruct (main_eval _ _ _ _) as [q| | |]; try (apply pair_equal_spec in Q as [_ <-]; exact K).
    destruct (Bool.bool_dec uc true) as [U|U]; [|apply Bool.not_true_is_false in U]; rewrite U in Q at 1; [|apply pair_equal_spec in Q as [_ <-]; exact K].
    destruct (write_object E G _) as [G'|] eqn:W; [|apply pair_equal_spec in Q as [_ <-]; exact K]. apply pair_equal_spec in Q as [_ <-].
    eapply kept_write; [exact U|exact K| |exact W]. cbn [m_file with_flags with_program with_scope]. rewrite (main_file _ _ _ _ O Lm). constructor.
  Qed.
End Disk.

(** Compiling never changes a source. It changes no object file but those of the program's own modules, those it changes are written by this
    run, and none with --no-cache; whether the run succeeds or not. *)
Theorem C94_modules : forall w a S F res S' F', objects_in_place S -> runs w a S F res S' F' ->
  (forall f, sources S' f = sources S f)
  /\ forall f, objects S' f = objects S f
     \/ a_no_cache a = false /\ e_writable (w_env w) f = true /\ written_now (w_env w) S' f
        /\ exists name, main_name a = Some name /\ program_file (w_env w) true name S f.
Proof.
  intros w a S F res S' F' O H. destruct H as [e H|H|c e H|c o H|c o name r S1 H Ho Hn C]; auto. apply kept_compiles in C; [|exact O]. destruct C as [Ks Ko].
  split; [intro f; rewrite Ks; reflexivity|]. intro f. destruct (Ko f) as [X|(U & W & P & N)]; [auto|]. right. destruct (config_fields _ _ _ H) as (_ & _ & _ & _ & _ & V).
  rewrite U in V. split; [destruct (a_no_cache a); [discriminate V|reflexivity]|]. split; [exact W|]. split; [exact N|]. exists (fst (stem_and_extension name)). unfold main_name. rewrite Hn. split; [reflexivity|]. rewrite U in P. exact P.
Qed.
Print Assumptions C94_modules.
(** Object files stay where they belong, so this can be said of the next run too. *)
Theorem C94_in_place : forall w a S F res S' F', objects_in_place S -> runs w a S F res S' F' -> objects_in_place S'.
Proof.
  intros w a S F res S' F' O H f m t Ob. destruct (C94_modules _ _ _ _ _ _ _ O H) as [_ Ko]. destruct (Ko f) as [X|(_ & _ & (m' & X & Mf) & _)].
  - rewrite X in Ob. exact (O _ _ _ Ob).
  - congruence.
Qed.
Print Assumptions C94_in_place.

(** Of the other files, a run with CSV output changes at most two: the target, and with --backup one new file, named after the target,
    in its directory, with what was in the target. *)
Definition backup_of (p q : path) : Prop := p_dir q = p_dir p /\ extension q = extension p.
Lemma last_dot_inv s a b : last_dot s = Some (a, b) -> s = a ++ c_dot :: b /\ ~ In c_dot b.
Proof.
  revert a b. induction s as [|x s IH]; intros a b; cbn [last_dot]; [discriminate|]. destruct (last_dot s) as [[a' b']|] eqn:E.
  - intro H. injection H as <- <-. destruct (IH _ _ eq_refl) as [-> N]. auto.
  - destruct (N.eqb_spec x c_dot) as [->|_]; [|discriminate]. intro H. injection H as <- <-. split; [reflexivity|]. apply last_dot_none. exact E.
Qed.
Lemma extension_inv p ext : extension p = Some ext -> exists stem, p_name p = Some (stem ++ c_dot :: ext) /\ stem <> [] /\ ~ In c_dot ext /\ file_stem p = Some stem.
Proof.
  unfold extension, file_stem, stem_and_extension. destruct (p_name p) as [n|]; [|discriminate]. cbn [option_map]. destruct (last_dot n) as [[a b]|] eqn:L; [|discriminate]. destruct (last_dot_inv _ _ _ L) as [-> N].
  destruct a as [|x a]; [discriminate|]. cbn [fst snd]. intro H. injection H as <-. eexists. repeat split; [discriminate|exact N].
Qed.
Lemma backup_path_named now F p q : backup_path now F p = Ok q -> extension p <> Some [] -> backup_of p q.
Proof.
  unfold backup_path. intros H Nx. destruct (file_stem p) as [stem|] eqn:St; [|discriminate H]. destruct (extension p) as [ext|] eqn:Ex; [|discriminate H].
  destruct (first_unused F _) as [r|] eqn:U; [|discriminate H]. injection H as <-. destruct (first_unused_spec _ _ _ U) as [I _]. apply in_map_iff in I as (t & <- & It). unfold backup_of, backup_name. cbn [p_dir]. split; [reflexivity|].
  destruct (extension_inv _ _ Ex) as (st & _ & Ns & Nd & St'). rewrite St in St'. injection St' as <-. unfold set_extension. destruct ext as [|x ext]; [destruct (Nx eq_refl)|].
  rewrite Ex. apply extension_of; [|exact Nd]. unfold stem_and_extension. destruct (last_dot (stem ++ lit "-" ++ t)) as [[[|y a] b]|]; cbn [fst]; [|discriminate|]; destruct stem; try discriminate; contradiction.
Qed.
Lemma csv_extension p : from_filename p = Ok (OutCsv p) -> exists ext, extension p = Some ext /\ caseless ext "csv".
Proof.
  unfold from_filename. destruct (extension p) as [e|] eqn:Ex; [|discriminate]. destruct (same_ignoring_case e "csv") eqn:C; [|destruct (_ || _ || _ || _); [|destruct (same_ignoring_case e "ods")]; discriminate].
  intros _. exists e. split; [reflexivity|]. apply same_caseless in C; [exact C|reflexivity].
Qed.
Theorem C94_other_files : forall w a p S F res S' F', csv_output a p -> runs w a S F res S' F' ->
  (forall q, q <> p -> F' q = F q)
  \/ a_backup a = true /\ exists b, F b = None /\ F' b = F p /\ backup_of p b /\ forall q, q <> p -> q <> b -> F' q = F q.
Proof.
  intros w a p S F res S' F' Hp H. destruct H as [e H|H|c e H|c o H|c o name r S1 H Ho Hn C]; auto.
  rewrite (csv_chosen _ _ _ Hp) in Ho. injection Ho as <-. destruct r as [m|e| |]; cbn [fst snd] in *; auto. rewrite deliver_csv. destruct (config_fields _ _ _ H) as (Bk & _).
  assert (W : forall s G, forall q, q <> p -> snd (write_csv (w_read w) (w_writable w p) (c_overwrite_values c) p s G) q = G q).
  { intros s G q N. unfold write_csv. destruct (match G p with Some text => _ | None => _ end); [destruct (w_writable w p)|]; cbn [snd]; try reflexivity. apply write_other. exact N. }
  unfold main_program. destruct (c_backup c) eqn:Cb.
  - destruct (C37_failed (w_creatable w) (w_now w) F p) as [(b & F1 & B)|(e & B)]; rewrite B; [|left; reflexivity]. right. split; [congruence|]. exists b. destruct (C37_backup _ _ _ _ _ _ B) as (Q & P & Cp & Ot).
    assert (Nb : b <> p) by (intros ->; congruence). split; [exact Q|]. specialize (W (pr_sheet (m_program m)) F1). destruct (write_csv _ _ _ _ _ F1) as [r F2]. cbn [snd] in *.
    split; [rewrite (W b Nb); exact Cp|]. split; [|intros q N N'; rewrite (W q N); apply Ot; exact N']. apply (backup_path_named (w_now w) F p b).
    + unfold backup_file in B. destruct (backup_path (w_now w) F p) as [q| | |]; try discriminate B. unfold copy_file in B. destruct (F p); [|discriminate B]. destruct (w_creatable w q); [|discriminate B]. injection B as -> _. reflexivity.
    + destruct Hp as (_ & _ & X). destruct (csv_extension _ X) as (ext & Ex & Cl). rewrite Ex. intro K. injection K as ->. inversion Cl.
  - left. specialize (W (pr_sheet (m_program m)) F). destruct (write_csv _ _ _ _ _ F) as [r F2]. exact W.
Qed.
Print Assumptions C94_other_files.
(** With Google Sheets output no file is changed at all. *)
Theorem C94_google : forall w a id S F res S' F', a_google_sheet_id a = Some id -> runs w a S F res S' F' -> F' = F.
Proof.
  intros w a id S F res S' F' Hid H. destruct H as [e H|H|c e H|c o H|c o name r S1 H Ho Hn C]; auto. rewrite Hid in Ho. unfold choose_output, from_google_sheet_id in Ho. destruct (forallb _ id); [|discriminate Ho]. injection Ho as <-.
  destruct r as [m|e| |]; cbn [snd]; auto. unfold deliver. destruct (target w c _) as [cr| | |]; try reflexivity. cbn [write_backup write_target]. destruct (c_backup c); [destruct (w_google_backup w cr id); try reflexivity|]; destruct (w_google w c cr id _); reflexivity.
Qed.
Print Assumptions C94_google.
(** The target and the backup are never one of the imported modules' sources, and never an object file: those names end in .csvpp and .csvpo. *)
Theorem C94_no_module : forall p q name, from_filename p = Ok (OutCsv p) -> (q = p \/ backup_of p q) -> p_name q <> Some (name ++ lit ".csvpp") /\ p_name q <> Some (name ++ lit ".csvpo").
Proof.
  intros p q name H Q. destruct (csv_extension _ H) as (ext & Ex & Cl). assert (Eq : extension q = Some ext) by (destruct Q as [->|[_ ->]]; exact Ex). destruct (extension_inv _ _ Eq) as (stem & -> & _ & Nd & _).
  assert (X : forall e, ~ In c_dot e -> name ++ c_dot :: e = stem ++ c_dot :: ext -> e = ext).
  { intros e Ne K. pose proof (f_equal last_dot K) as K'. rewrite !last_dot_app in K' by assumption. congruence. }
  split; intro K; injection K as K; symmetry in K.
  - change (lit ".csvpp") with (c_dot :: lit "csvpp") in K. apply X in K; [|intro I; repeat (destruct I as [I|I]; [discriminate I|]); destruct I]. rewrite <- K in Cl. clear -Cl. repeat match goal with H : caseless _ _ |- _ => inversion H; clear H; subst end.
  - change (lit ".csvpo") with (c_dot :: lit "csvpo") in K. apply X in K; [|intro I; repeat (destruct I as [I|I]; [discriminate I|]); destruct I]. rewrite <- K in Cl. clear -Cl. repeat match goal with H : caseless _ _ |- _ => inversion H; clear H; subst end.
Qed.
Print Assumptions C94_no_module.

(** ** The main file *)
(** The main file may have any name (C90), that of the target too. The contents of the files of a directory: *)
Definition here (n : str) : path := {| p_dir := []; p_name := Some n |}.
Definition contents (D : folder) : files := fun p => match p_dir p, p_name p with [], Some n => option_map fst (fo_sources D n) | _, _ => None end.
Lemma folder_sources_kept E uc args f D r : folder_runs E uc args f D r -> fo_sources (snd r) = fo_sources D.
Proof.
  intros [m Lm Rq|e Lm|Lm]; cbn [snd]; auto. unfold folder_finish. destruct (m_needs_eval _); [|reflexivity]. destruct (main_eval _ _ _ _); cbn [snd]; auto. destruct uc; [|reflexivity]. unfold folder_write. destruct (e_writable E _); reflexivity.
Qed.
(** C94 refuted: a program in a file with the extension csv whose output is that file loses its source: the run succeeds, the file then holds the
    output, and no other file has changed. *)
Theorem C94_own_source_refuted : forall E use_cache args f D text t m D1 read creatable writable now overwrite F',
  fo_sources D f = Some (text, t) -> folder_runs E use_cache args f D (Ok m, D1) ->
  main_program read creatable writable now false overwrite (here f) (Ok m) (contents D1) = (Done, F') ->
  (exists records, read text = Some records /\ F' (here f) = Some (csv_text (csv_write overwrite records (pr_sheet (m_program m)))))
  /\ forall q, q <> here f -> F' q = contents D q.
Proof.
  intros E uc args f D text t m D1 rd cr wr now ow F' So C M. pose proof (folder_sources_kept _ _ _ _ _ _ C) as K. cbn [snd] in K.
  assert (Cq : forall q, contents D1 q = contents D q) by (intro q; unfold contents; rewrite K; reflexivity). unfold main_program, write_csv in M. rewrite (Cq (here f)) in M. unfold contents in M at 1. cbn [here p_dir p_name] in M. rewrite So in M. cbn [option_map fst] in M.
  destruct (rd text) as [records|] eqn:Rd; [|discriminate M]. destruct wr; [|discriminate M]. injection M as <-. split.
  - exists records. split; [reflexivity|apply write_same].
  - intros q N. rewrite write_other by exact N. apply Cq.
Qed.
Print Assumptions C94_own_source_refuted.
(** With --backup the source is still in another file; and it is safe if the program's file has another extension than the target. *)
Theorem C94_own_source_backup : forall E use_cache args f D text t m D1 read creatable writable now overwrite F',
  fo_sources D f = Some (text, t) -> folder_runs E use_cache args f D (Ok m, D1) ->
  main_program read creatable writable now true overwrite (here f) (Ok m) (contents D1) = (Done, F') ->
  exists q, contents D q = None /\ F' q = Some text.
Proof.
  intros E uc args f D text t m D1 rd cr wr now ow F' So C M. pose proof (folder_sources_kept _ _ _ _ _ _ C) as K. cbn [snd] in K. destruct (C64_done _ _ _ _ _ _ _ _ _ _ M) as (_ & _ & X). destruct (X eq_refl) as (q & Q & Fq & N).
  exists q. unfold contents in *. rewrite K in *. split; [exact Q|]. rewrite Fq. cbn [here p_dir p_name]. rewrite So. reflexivity.
Qed.
Print Assumptions C94_own_source_backup.
Theorem C94_other_source : forall E use_cache args f D r D1 p read creatable writable now backup overwrite res F',
  folder_runs E use_cache args f D (r, D1) -> p <> here f ->
  main_program read creatable writable now backup overwrite p r (contents D1) = (res, F') ->
  forall text t, fo_sources D f = Some (text, t) -> F' (here f) = Some text.
Proof.
  intros E uc args f D r D1 p rd cr wr now bk ow res F' C N M text t So. pose proof (folder_sources_kept _ _ _ _ _ _ C) as K. cbn [snd] in K. assert (Cf : contents D1 (here f) = Some text) by (unfold contents; cbn [here p_dir p_name]; rewrite K, So; reflexivity).
  assert (Nd : res = Done \/ res <> Done) by (destruct res; auto; right; discriminate). destruct Nd as [->|Nd].
  - destruct (C64_done _ _ _ _ _ _ _ _ _ _ M) as (_ & X & _). apply X; [congruence|exact Cf].
  - destruct (C64_failed _ _ _ _ _ _ _ _ _ _ _ M Nd) as (_ & X). apply X. exact Cf.
Qed.
Print Assumptions C94_other_source.

(** ** Examples *)
(** main imports lib; both are compiled; a backup of the target is asked for *)
Definition ex_disk_cli (name : string) (backup : bool) : cli_args :=
  {| a_backup := backup; a_google_sheet_id := None; a_credentials := None; a_key_values := []; a_no_cache := false; a_output_filename := Some (file_named "out.csv");
     a_safe := false; a_sheet_name := None; a_verbose := 0; a_x_offset := 0; a_y_offset := 0; a_input := {| p_dir := []; p_name := Some (lit name) |} |}.
Definition ex_spare_lib : fs := {| sources := fun f => if path_eqb f [lit "other"] then Some (lit "=1", 1) else sources ex_two f; objects := fun f => if path_eqb f [lit "other"] then Some (OGarbage, 1) else None |}.
Definition ex_disk_module : option (module * fs) :=
  match ex_run (ex_E 5) true [] "main" ex_spare_lib false order2 with Some (Ok m, S') => Some (m, S') | _ => None end.
Lemma ex_disk_runs : exists m S' F', ex_disk_module = Some (m, S') /\ runs ex_world (ex_disk_cli "main.csvpp" true) ex_spare_lib (ex_target "b") Exit0 S' F'
  /\ F' (file_named "out.csv") = Some (lit ("=1" ++ nl)%string) /\ F' (file_named "out-2024_03_07.csv") = Some (lit "b").
Proof.
  assert (X : match ex_disk_module with
              | Some (m, _) => let r := deliver ex_world (match config_of (oracle_of ex_world) (ex_disk_cli "main.csvpp" true) with Ok c => c | _ => {| c_backup := true; c_credentials := None; c_key_values := []; c_offset := (0, 0)%N; c_overwrite_values := true; c_sheet_name := []; c_use_cache := true; c_verbosity := LError |} end) (OutCsv (file_named "out.csv")) m (ex_target "b") in
                  (match fst r with Exit0 => true | _ => false end, snd r (file_named "out.csv"), snd r (file_named "out-2024_03_07.csv")) = (true, Some (lit ("=1" ++ nl)%string), Some (lit "b"))
              | None => False end) by (vm_compute; reflexivity).
  destruct ex_disk_module as [[m S']|] eqn:D; [|destruct X]. exists m, S', (snd (deliver ex_world (match config_of (oracle_of ex_world) (ex_disk_cli "main.csvpp" true) with Ok c => c | _ => {| c_backup := true; c_credentials := None; c_key_values := []; c_offset := (0, 0)%N; c_overwrite_values := true; c_sheet_name := []; c_use_cache := true; c_verbosity := LError |} end) (OutCsv (file_named "out.csv")) m (ex_target "b"))).
  assert (C : compiles (ex_E 5) true [] (lit "main") ex_spare_lib (Ok m, S')).
  { unfold ex_disk_module, ex_run in D. destruct (exec_compile _ _ _ _ _ _ _ _) as [[[m0| | |] S0]|] eqn:Q; try discriminate D. injection D as <- <-. eapply exec_compile_sound. exact Q. }
  destruct (config_of (oracle_of ex_world) (ex_disk_cli "main.csvpp" true)) as [c| | |] eqn:Cf; [|exfalso; clear -Cf; assert (K : match config_of (oracle_of ex_world) (ex_disk_cli "main.csvpp" true) with Ok _ => True | _ => False end) by (vm_compute; exact I); rewrite Cf in K; exact K..].
  cbv zeta in X. apply pair_equal_spec in X as [X X3]. apply pair_equal_spec in X as [X1 X2]. split; [reflexivity|]. split; [|split; assumption].
  assert (U : c_use_cache c = true /\ c_key_values c = []) by (apply config_fields in Cf; destruct Cf as (_ & _ & K & _ & _ & K'); split; [exact K'|]; injection K as <-; reflexivity).
  destruct U as [U1 U2]. pose proof (r_compiled ex_world (ex_disk_cli "main.csvpp" true) ex_spare_lib (ex_target "b") c (OutCsv (file_named "out.csv")) (lit "main.csvpp") (Ok m) S' Cf eq_refl eq_refl) as Z.
  rewrite U1, U2 in Z. specialize (Z C). cbn [fst snd] in Z. destruct (fst (deliver ex_world c (OutCsv (file_named "out.csv")) m (ex_target "b"))) eqn:Fd; try discriminate X1. exact Z.
Qed.
Example C94_nonvacuous : objects_in_place ex_spare_lib /\ csv_output (ex_disk_cli "main.csvpp" true) (file_named "out.csv")
  /\ (exists S' F', runs ex_world (ex_disk_cli "main.csvpp" true) ex_spare_lib (ex_target "b") Exit0 S' F' /\ written_now (ex_E 5) S' [lit "main"] /\ written_now (ex_E 5) S' [lit "lib"] /\ objects S' [lit "other"] = Some (OGarbage, 1)
        /\ F' (file_named "out.csv") = Some (lit ("=1" ++ nl)%string) /\ F' (file_named "out-2024_03_07.csv") = Some (lit "b"))
  /\ backup_of (file_named "out.csv") (file_named "out-2024_03_07.csv").
Proof.
  split; [intros f m t; cbn [objects ex_spare_lib]; destruct (path_eqb f _); discriminate|]. split; [repeat split|]. split; [|split; reflexivity].
  destruct ex_disk_runs as (m & S' & F' & D & R & X & Y). exists S', F'. split; [exact R|].
  assert (W : match ex_disk_module with Some (_, S') => (match objects S' [lit "main"] with Some (ODecoded m, t) => path_eqb (m_file m) [lit "main"] && (t =? 5) | _ => false end)
    && (match objects S' [lit "lib"] with Some (ODecoded m, t) => path_eqb (m_file m) [lit "lib"] && (t =? 5) | _ => false end)
    && (match objects S' [lit "other"] with Some (OGarbage, t) => t =? 1 | _ => false end) | None => false end = true) by (vm_compute; reflexivity).
  rewrite D in W. apply andb_prop in W as [W W3]. apply andb_prop in W as [W1 W2]. unfold written_now. split; [|split; [|split; [|split; assumption]]].
  - destruct (objects S' [lit "main"]) as [[[m0|] t]|]; try discriminate W1. apply andb_prop in W1 as [P T]. destruct (LoaderProofs.path_eqb_spec (m_file m0) [lit "main"]) as [Pm|]; [|discriminate P]. apply Nat.eqb_eq in T as ->. eauto.
  - destruct (objects S' [lit "lib"]) as [[[m0|] t]|]; try discriminate W2. apply andb_prop in W2 as [P T]. destruct (LoaderProofs.path_eqb_spec (m_file m0) [lit "lib"]) as [Pm|]; [|discriminate P]. apply Nat.eqb_eq in T as ->. eauto.
  - destruct (objects S' [lit "other"]) as [[[m0|] t]|]; try discriminate W3. apply Nat.eqb_eq in W3 as ->. reflexivity.
Qed.
(** the program is in t.csv and its output too *)
Definition ex_own : folder := ex_folder [("t.csv", "x := 2" ++ nl ++ "---" ++ nl ++ "1,=x", 1)]%string.
Example C94_own_source_nonvacuous : exists m D1 F', folder_runs (ex_E 5) true [] (lit "t.csv") ex_own (Ok m, D1)
  /\ from_filename (here (lit "t.csv")) = Ok (OutCsv (here (lit "t.csv")))
  /\ main_program (fun t => Some (csv_read t)) (fun _ => true) true ex_now false true (here (lit "t.csv")) (Ok m) (contents D1) = (Done, F')
  /\ F' (here (lit "t.csv")) = Some (lit ("1,=2" ++ nl)%string).
Proof.
  assert (X : match fst (ex_folder_run ex_own "t.csv") with
              | Ok m => let r := main_program (fun t => Some (csv_read t)) (fun _ => true) true ex_now false true (here (lit "t.csv")) (Ok m) (contents (snd (ex_folder_run ex_own "t.csv"))) in
                        (match fst r with Done => true | _ => false end, snd r (here (lit "t.csv"))) = (true, Some (lit ("1,=2" ++ nl)%string))
              | _ => False end) by (vm_compute; reflexivity).
  assert (R : folder_runs (ex_E 5) true [] (lit "t.csv") ex_own (ex_folder_run ex_own "t.csv")) by (apply fr_run; vm_compute; reflexivity).
  destruct (ex_folder_run ex_own "t.csv") as [[m| | |] D1]; cbn [fst snd] in X; [|destruct X..]. cbv zeta in X. apply pair_equal_spec in X as [X1 X2].
  exists m, D1. destruct (main_program _ _ _ _ _ _ _ _ _) as [r F']. cbn [fst snd] in *. exists F'. split; [exact R|]. split; [vm_compute; reflexivity|]. destruct r; try discriminate X1. auto.
Qed.
