(** * PropFlags: flags that concern something else do not change the result (C97). *)
From Coq Require Import Permutation.
From Verif Require Import Base BaseProofs Csvp Ast AstParser AstProofs Eval EvalSpec EvalProofs EvalRounds EvalAgree Options CellParser Sheet SheetProofs2 Loader LoaderSpec LoaderProofs LoaderProofs3 Targets Files Cli PropCell PropLoader PropCache PropTarget PropFiles PropCli FlagSpec.

(** ** Scopes with the same definitions *)
Definition alike_scope (sc sc' : scope) : Prop := functions sc = functions sc' /\ exports sc = exports sc' /\ forall x, assoc x (variables sc) = assoc x (variables sc').
Lemma insert_all_alike {A} (x : str) : forall (l m m' : list (str * A)), assoc x m = assoc x m' -> assoc x (insert_all l m) = assoc x (insert_all l m').
Proof.
  induction l as [|[k v] l IH]; intros m m' H; cbn [fold_left fst snd]; [exact H|]. apply IH. destruct (str_eqb_spec x k) as [->|N].
  - rewrite !assoc_insert_same. reflexivity.
  - rewrite !assoc_insert_other by exact N. exact H.
Qed.
Lemma sheet_scope_alike p ext ext' : NoDup (map fst ext) -> NoDup (map fst ext') -> (forall x, assoc x ext = assoc x ext') -> alike_scope (sheet_scope p ext) (sheet_scope p ext').
Proof.
  intros U U' H. unfold sheet_scope. split; [reflexivity|split; [reflexivity|]]. intro x. unfold merge_variables at 1 3. cbn [variables].
  apply insert_all_alike. rewrite !insert_all_assoc by assumption. rewrite H. reflexivity.
Qed.
Section Alike.
  Variables sc sc' : scope.
  Hypothesis H : alike_scope sc sc'.
  Let any (x : str) : Prop := True.
  Lemma all_within n : within any any n.
  Proof. split; intros; exact I. Qed.
  Lemma hv : forall x, any x -> assoc x (variables sc') = assoc x (variables sc).
  Proof. intros x _. symmetry. apply H. Qed.
  Lemma hf : forall f, any f -> assoc f (functions sc') = assoc f (functions sc).
  Proof. intros f _. destruct H as [-> _]. reflexivity. Qed.
  Lemma hc pos : forall x v, any x -> variable_node sc pos x = Some (Ok v) -> within any any v.
  Proof. intros; apply all_within. Qed.
  Lemma hg : forall f g, any f -> assoc f (functions sc) = Some g -> within_function any any g.
  Proof. intros f g _ _. destruct g; try apply all_within. split; intros; [right|]; exact I. Qed.
  Lemma eval_alike ord pos : forall fuel k last n, eval_loop fuel ord k sc' pos last n = eval_loop fuel ord k sc pos last n.
  Proof.
    induction fuel as [|fuel IH]; intros k last n; [reflexivity|]. cbn [eval_loop].
    assert (X : extract_references sc' n = extract_references sc n) by (apply (extract_agree any any sc sc' hv hf), all_within). rewrite X.
    destruct (_ || _); [reflexivity|]. unfold eval_round.
    rewrite (resolve_agree any sc sc' pos hv) by (intros; exact I).
    destruct (resolve_variables sc pos _) as [m| | |]; cbn [bind]; try reflexivity.
    destruct (functions_agree any any sc sc' hf hg (ord (2 * k + 1) (ref_functions (extract_references sc n))) (fun _ _ => I) (eval_variables m n) (all_within _)) as [-> _].
    destruct (eval_functions _ _ _); cbn [bind]; auto.
  Qed.
  Lemma cells_alike ev y : forall cs x, eval_cells ev sc' y x cs = eval_cells ev sc y x cs.
  Proof.
    induction cs as [|c cs IH]; intro x; [reflexivity|]. cbn [eval_cells]. rewrite IH. destruct (cell_ast c) as [n|]; [|reflexivity]. unfold ast_eval. rewrite eval_alike. reflexivity.
  Qed.
  Lemma rows_alike ev : forall rs y, mapi (row_eval ev sc') y rs = mapi (row_eval ev sc) y rs.
  Proof. induction rs as [|r rs IH]; intro y; [reflexivity|]. cbn [mapi]. rewrite IH. unfold row_eval. rewrite cells_alike. reflexivity. Qed.
End Alike.

Definition alike_program (p p' : program) : Prop := pr_sheet p = pr_sheet p' /\ pr_required p = pr_required p' /\ alike_scope (pr_scope p) (pr_scope p').
Lemma main_eval_alike ev sched p ext ext' : NoDup (map fst ext) -> NoDup (map fst ext') -> (forall x, assoc x ext = assoc x ext') ->
  match main_eval ev sched p ext, main_eval ev sched p ext' with
  | Ok q, Ok q' => alike_program q q'
  | Err e, Err e' => e = e' | Panic, Panic | NoFuel, NoFuel => True | _, _ => False
  end.
Proof.
  intros U U' H. unfold main_eval. destruct (module_eval_fills p) as [q|e| |]; cbn [bind]; auto. unfold eval_spreadsheet.
  pose proof (sheet_scope_alike q ext ext' U U' H) as A. rewrite (rows_alike _ _ A).
  destruct (par_collect _ _) as [rows|e| |]; cbn [bind]; auto. split; [reflexivity|]. split; [reflexivity|]. exact A.
Qed.

(** ** Compiling with the same arguments *)
Definition same_compiled (r r' : outcome compile_error module) : Prop :=
  match r, r' with Ok m, Ok m' => same_module m m' | Err e, Err e' => e = e' | Panic, Panic | NoFuel, NoFuel => True | _, _ => False end.
Lemma same_module_refl m : same_module m m.
Proof. unfold same_module. auto 12. Qed.
Lemma same_directory_refl S : same_directory S S.
Proof. split; auto. Qed.
Lemma finish_alike E uc ext ext' m F : NoDup (map fst ext) -> NoDup (map fst ext') -> (forall x, assoc x ext = assoc x ext') ->
  same_compiled (fst (finish E uc ext m F)) (fst (finish E uc ext' m F)) /\ same_directory (snd (finish E uc ext m F)) (snd (finish E uc ext' m F)).
Proof.
  intros U U' H. unfold finish. destruct (m_needs_eval m); [|split; [apply same_module_refl|apply same_directory_refl]].
  pose proof (main_eval_alike (e_sheet E) (e_sched E) (m_program m) ext ext' U U' H) as X.
  destruct (main_eval _ _ _ ext) as [p|e| |], (main_eval _ _ _ ext') as [p'|e'| |]; try contradiction; try (split; [exact I|apply same_directory_refl]).
  - assert (M : same_module (with_flags (with_program m p) (m_dirty m) false) (with_flags (with_program m p') (m_dirty m) false)).
    { destruct X as [A [B [C1 [C2 C3]]]]. unfold same_module, with_flags, with_program. cbn [m_version m_path m_file m_dirty m_needs_eval m_program]. auto 12. }
    destruct uc; [|split; [exact M|apply same_directory_refl]]. unfold write_object. cbn [with_flags with_program m_file]. destruct (e_writable E (m_file m)); [|split; [reflexivity|apply same_directory_refl]].
    split; [exact M|]. split; [reflexivity|]. intro f. cbn [snd objects]. destruct (path_eqb f (m_file m)); [right|left; reflexivity]. do 3 eexists. split; [reflexivity|]. split; [reflexivity|exact M].
  - subst e'. split; [reflexivity|apply same_directory_refl].
Qed.
Lemma compiles_alike E uc ext ext' name F r S1 : NoDup (map fst ext) -> NoDup (map fst ext') -> (forall x, assoc x ext = assoc x ext') ->
  compiles E uc ext name F (r, S1) -> exists r' S2, compiles E uc ext' name F (r', S2) /\ same_compiled r r' /\ same_directory S1 S2.
Proof.
  intros U U' H C. inversion C as [main sh t order Lm Rn Ro Q|e Lm Q|Lm Q].
  - assert (X : same_compiled r (fst (compile_with E uc ext' main sh t order F)) /\ same_directory S1 (snd (compile_with E uc ext' main sh t order F))).
    { unfold compile_with in *. destruct (panicked t); [injection Q as <- <-; split; [exact I|apply same_directory_refl]|].
      destruct (load_main E uc main sh order F) as [[m|e| |] G]; try (injection Q as <- <-; split; [reflexivity || exact I|apply same_directory_refl]).
      pose proof (finish_alike E uc ext ext' m G U U' H) as [A B]. rewrite Q in A, B. exact (conj A B). }
    exists (fst (compile_with E uc ext' main sh t order F)), (snd (compile_with E uc ext' main sh t order F)). split; [|exact X]. rewrite <- surjective_pairing. apply c_run; assumption.
  - exists (Err (MainNotLoaded e)), F. subst. split; [apply c_main_failed; assumption|]. split; [reflexivity|apply same_directory_refl].
  - exists Panic, F. subst. split; [apply c_main_panics; assumption|]. split; [exact I|apply same_directory_refl].
Qed.

(** ** What the arguments give *)
Lemma key_value_unique o kv k n k' n' : key_value o kv k n -> key_value o kv k' n' -> k = k' /\ n = n'.
Proof.
  intros (v & -> & N & P) (v' & E & N' & P'). destruct (split_at _ _ _ _ _ E N N') as [<- <-]. split; congruence.
Qed.
Lemma key_value_dec o kv k : (exists n, key_value o kv k n) \/ forall n, ~ key_value o kv k n.
Proof.
  pose proof (split_once_spec c_eq kv) as Sp. destruct (split_once c_eq kv) as [[a v]|].
  - destruct Sp as [-> Na]. destruct (str_eqb_spec a k) as [->|Nk].
    + destruct (ast_parse o false v) as [n| | |] eqn:P; [left; exists n, v; auto|right..]; intros n' (v' & Q & N' & P'); destruct (split_at _ _ _ _ _ Q Na N') as [_ <-]; congruence.
    + right. intros n (v' & Q & N' & P'). destruct (split_at _ _ _ _ _ Q Na N') as [E _]. exact (Nk E).
  - right. intros n (v' & -> & _). apply Sp, in_or_app. right. left. reflexivity.
Qed.
Lemma given_or_none o k : forall kvs, (exists n, given o kvs k n) \/ forall kv n, In kv kvs -> ~ key_value o kv k n.
Proof.
  induction kvs as [|x kvs IH] using rev_ind; [right; intros ? ? []|]. destruct (key_value_dec o x k) as [[n K]|N].
  - left. exists n, kvs, x, []. split; [reflexivity|]. split; [exact K|]. intros ? ? [].
  - destruct IH as [(n & b & kv & a & -> & K & L)|IH].
    + left. exists n, b, kv, (a ++ [x]). split; [rewrite <- app_assoc; reflexivity|]. split; [exact K|]. intros kv' n' I. apply in_app_or in I as [I|[<-|[]]]; [apply L; exact I|apply N].
    + right. intros kv n I. apply in_app_or in I as [I|[<-|[]]]; [apply IH; exact I|apply N].
Qed.
Lemma given_parsed o : forall kvs acc r, parse_key_values o kvs acc = Ok r -> forall k,
  (exists n, assoc k r = Some n /\ given o kvs k n) \/ (assoc k r = assoc k acc /\ forall n, ~ given o kvs k n).
Proof.
  induction kvs as [|kv kvs IH]; intros acc r P k.
  - injection P as <-. right. split; [reflexivity|]. intros n (b & kv & a & Q & _). destruct b; discriminate Q.
  - assert (K : exists k0 n0, key_value o kv k0 n0) by (apply (proj1 (key_values_ok o (kv :: kvs) acc) (ex_intro _ r P)); left; reflexivity).
    destruct K as (k0 & n0 & K). rewrite (key_value_step _ _ _ _ _ _ K) in P. destruct (IH _ _ P k) as [(n & A & b & kv1 & a & -> & K1 & L)|[A B]].
    + left. exists n. split; [exact A|]. exists (kv :: b), kv1, a. auto.
    + destruct (str_eqb_spec k k0) as [->|Nk].
      * rewrite assoc_insert_same in A. left. exists n0. split; [exact A|]. exists [], kv, kvs. split; [reflexivity|]. split; [exact K|].
        intros kv' n' I K'. destruct (given_or_none o k0 kvs) as [[n X]|X]; [exact (B n X)|exact (X kv' n' I K')].
      * rewrite assoc_insert_other in A by exact Nk. right. split; [exact A|]. intros n (b & kv1 & a & Q & K1 & L). destruct b as [|x b].
        -- injection Q as -> ->. destruct (key_value_unique _ _ _ _ _ _ K K1) as [-> _]. apply Nk. reflexivity.
        -- injection Q as -> ->. apply (B n). exists b, kv1, a. auto.
Qed.
Lemma given_assoc o kvs r k n : parse_key_values o kvs [] = Ok r -> given o kvs k n <-> assoc k r = Some n.
Proof.
  intro P. assert (U : forall l n n', given o l k n -> given o l k n' -> n = n').
  { intros l n1 n2 (b & kv & a & Q & K & L) (b' & kv' & a' & Q' & K' & L'). subst l. clear -Q' K L K' L'. revert b' Q'. induction b as [|y b IH]; intros [|y' b'] Q'.
    - injection Q' as <- <-. apply (key_value_unique _ _ _ _ _ _ K K').
    - injection Q' as -> ->. exfalso. apply (L kv' n2); [apply in_elt|exact K'].
    - injection Q' as -> <-. exfalso. apply (L' kv n1); [apply in_elt|exact K].
    - injection Q' as _ Q'. exact (IH _ Q'). }
  destruct (given_parsed o _ _ _ P k) as [(m & A & G)|[A N]]; rewrite A; split; intro H.
  - rewrite (U _ _ _ G H). reflexivity.
  - injection H as <-. exact G.
  - exfalso. exact (N n H).
  - discriminate H.
Qed.
Lemma same_arguments_parsed o kvs kvs' r r' : parse_key_values o kvs [] = Ok r -> parse_key_values o kvs' [] = Ok r' ->
  same_arguments o kvs kvs' <-> forall x, assoc x r = assoc x r'.
Proof.
  intros P P'. split.
  - intros Sa x. destruct (assoc x r) as [n|] eqn:A.
    + symmetry. apply (given_assoc o _ _ _ _ P'), Sa, (given_assoc o _ _ _ _ P), A.
    + destruct (assoc x r') as [n|] eqn:A'; [|reflexivity]. apply (given_assoc o _ _ _ _ P'), Sa, (given_assoc o _ _ _ _ P) in A'. congruence.
  - intros H k n. rewrite (given_assoc o _ _ _ _ P), (given_assoc o _ _ _ _ P'), H. reflexivity.
Qed.
Lemma parsed_unique o kvs r : parse_key_values o kvs [] = Ok r -> NoDup (map fst r).
Proof. apply key_values_unique. constructor. Qed.
Lemma main_program_ext rd rd' cr cr' wr now b ov p m m' F : (forall t, rd t = rd' t) -> (forall q, cr q = cr' q) -> pr_sheet (m_program m) = pr_sheet (m_program m') ->
  main_program rd cr wr now b ov p (Ok m) F = main_program rd' cr' wr now b ov p (Ok m') F.
Proof.
  intros R C Sh. unfold main_program. rewrite <- Sh.
  assert (W : forall G, write_csv rd wr ov p (pr_sheet (m_program m)) G = write_csv rd' wr ov p (pr_sheet (m_program m)) G).
  { intro G. unfold write_csv. destruct (G p); [rewrite R|]; reflexivity. }
  assert (B : backup_file cr now F p = backup_file cr' now F p).
  { unfold backup_file, copy_file. destruct (backup_path now F p) as [q| | |]; [|reflexivity..]. rewrite C. reflexivity. }
  rewrite B. destruct b; [|apply W]. destruct (backup_file cr' now F p) as [[q|e| |] G]; [apply W|reflexivity..].
Qed.

(** ** C97 *)
(** Two runs that write CSV, with the same request and arguments that give the names the same formulas, in the same directory: whatever the one ends with (the exit status,
    what it prints, the files it writes) the other can end with; verbosity, sheet name, offsets, credentials, the order of the -k arguments
    and overridden ones, the home directory, Excel and Google make no difference. *)
Theorem C97_other_flags : forall w w' a a' p S F res S1 F1, same_files_world w w' -> csv_output a p -> same_request a a' ->
  accepted (oracle_of w) a -> accepted (oracle_of w) a' -> same_arguments (oracle_of w) (a_key_values a) (a_key_values a') ->
  runs w a S F res S1 F1 -> exists S2, runs w' a' S F res S2 F1 /\ same_directory S1 S2.
Proof.
  intros w w' a a' p S F res S1 F1 (We & Wr & Wc & Ww & Wn) Hp (Qi & Qo & Qg & Qc & Qb & Qs) A A' Sa H.
  apply config_accepted in A as [c Hc]. apply config_accepted in A' as [c' Hc'].
  assert (Hp' : csv_output a' p) by (unfold csv_output; rewrite <- Qo, <- Qg; exact Hp).
  pose proof (config_fields _ _ _ Hc) as (Fb & _ & Fk & _ & Fo & Fu). pose proof (config_fields _ _ _ Hc') as (Fb' & _ & Fk' & _ & Fo' & Fu').
  unfold oracle_of in *.
  destruct H as [e H|H|c1 e H Ho|c1 o H Ho Hn|c1 o name r S1 H Ho Hn C]; rewrite Hc in H; try discriminate H; injection H as <-; rewrite (csv_chosen _ _ _ Hp) in Ho; try discriminate Ho.
  - exists S. split; [|apply same_directory_refl]. injection Ho as <-. apply (r_no_input_name w' a' S F c' (OutCsv p)).
    + rewrite <- We. exact Hc'.
    + apply csv_chosen. exact Hp'.
    + rewrite <- Qi. exact Hn.
  - injection Ho as <-. rewrite Fu in C.
    destruct (compiles_alike _ _ _ (c_key_values c') _ _ _ _ (parsed_unique _ _ _ Fk) (parsed_unique _ _ _ Fk') (proj1 (same_arguments_parsed _ _ _ _ _ Fk Fk') Sa) C) as (r' & S2 & C' & R & D).
    exists S2. split; [|exact D]. rewrite Qc, <- Fu', We in C'. rewrite We in Hc'. rewrite Qi in Hn.
    pose proof (r_compiled w' a' S F c' (OutCsv p) name r' S2 Hc' (csv_chosen _ _ _ Hp') Hn C') as X.
    destruct r as [m|e| |], r' as [m'|e'| |]; try contradiction; [|cbn [same_compiled] in R; subst e'; exact X|exact X|exact X].
    destruct R as (_ & _ & _ & _ & _ & Sh & _). rewrite deliver_csv in *. rewrite Fb', Fo', <- Qb, <- Qs, <- Ww, <- Wn in X. rewrite Fb, Fo.
    rewrite (main_program_ext _ _ _ _ _ _ _ _ _ m m' F Wr Wc Sh). exact X.
Qed.
Print Assumptions C97_other_flags.

(** The -k arguments can be given in any order, and more than once, as long as no name is given two different formulas. *)
Definition one_formula_each (o : oracle) (kvs : list str) : Prop :=
  forall kv kv' k n n', In kv kvs -> In kv' kvs -> key_value o kv k n -> key_value o kv' k n' -> n = n'.
Definition with_arguments (a : cli_args) (kvs : list str) : cli_args :=
  {| a_backup := a_backup a; a_google_sheet_id := a_google_sheet_id a; a_credentials := a_credentials a; a_key_values := kvs; a_no_cache := a_no_cache a;
     a_output_filename := a_output_filename a; a_safe := a_safe a; a_sheet_name := a_sheet_name a; a_verbose := a_verbose a; a_x_offset := a_x_offset a; a_y_offset := a_y_offset a;
     a_input := a_input a |}.
Lemma given_each o kvs k n : one_formula_each o kvs -> given o kvs k n <-> exists kv, In kv kvs /\ key_value o kv k n.
Proof.
  intro U. split; [intros (b & kv & a & -> & K & _); exists kv; split; [apply in_elt|exact K]|]. intros (kv & I & K).
  destruct (given_or_none o k kvs) as [[n' G]|N]; [|exfalso; exact (N kv n I K)]. pose proof G as (b & kv' & a & Q & K' & _).
  assert (I' : In kv' kvs) by (rewrite Q; apply in_elt). rewrite (U kv kv' k n n' I I' K K'). exact G.
Qed.
Theorem C97_argument_order : forall w a kvs p S F res S1 F1, csv_output a p -> accepted (oracle_of w) a -> one_formula_each (oracle_of w) (a_key_values a) ->
  (forall kv, In kv kvs <-> In kv (a_key_values a)) ->
  runs w a S F res S1 F1 -> exists S2, runs w (with_arguments a kvs) S F res S2 F1 /\ same_directory S1 S2.
Proof.
  intros w a kvs p S F res S1 F1 Hp A U I H. refine (C97_other_flags w w a (with_arguments a kvs) p S F res S1 F1 _ Hp _ A _ _ H).
  - unfold same_files_world. auto.
  - unfold same_request. cbn. auto 8.
  - destruct A as (A & B & C). split; [|split; [exact B|exact C]]. cbn [with_arguments a_key_values]. intros kv K. apply A, I, K.
  - intros k n. cbn [with_arguments a_key_values]. rewrite (given_each _ _ _ _ U). rewrite given_each.
    + split; intros (kv & K & Q); exists kv; split; [apply I| |apply I|]; assumption.
    + intros kv kv' k' n1 n2 K1 K2. apply U; apply I; assumption.
Qed.
Print Assumptions C97_argument_order.

(** Without the cache the directory is not written, so the two runs are the same in every respect. *)
Theorem C97_without_cache : forall w w' a a' p S F res S1 F1, same_files_world w w' -> csv_output a p -> same_request a a' ->
  accepted (oracle_of w) a -> accepted (oracle_of w) a' -> same_arguments (oracle_of w) (a_key_values a) (a_key_values a') -> a_no_cache a = true ->
  runs w a S F res S1 F1 <-> runs w' a' S F res S1 F1.
Proof.
  intros w w' a a' p S F res S1 F1 W Hp Q A A' Sa N. split; intro H.
  - destruct (C97_other_flags _ _ _ _ _ _ _ _ _ _ W Hp Q A A' Sa H) as (S2 & H2 & _).
    rewrite (C72_no_cache _ _ _ _ _ _ _ N H). assert (N' : a_no_cache a' = true) by (destruct Q as (_ & _ & _ & <- & _); exact N).
    rewrite (C72_no_cache _ _ _ _ _ _ _ N' H2) in H2. exact H2.
  - assert (N' : a_no_cache a' = true) by (destruct Q as (_ & _ & _ & <- & _); exact N).
    assert (Ow : oracle_of w = oracle_of w') by (unfold oracle_of; destruct W as [-> _]; reflexivity). rewrite Ow in *.
    assert (W' : same_files_world w' w) by (destruct W as (W1 & W2 & W3 & W4 & W5); unfold same_files_world; auto).
    assert (Hp' : csv_output a' p) by (unfold csv_output; destruct Q as (_ & <- & <- & _); exact Hp).
    assert (Q' : same_request a' a) by (unfold same_request in *; intuition congruence).
    assert (Sa' : same_arguments (oracle_of w') (a_key_values a') (a_key_values a)) by (intros k n; symmetry; apply Sa).
    destruct (C97_other_flags _ _ _ _ _ _ _ _ _ _ W' Hp' Q' A' A Sa' H) as (S2 & H2 & _).
    rewrite (C72_no_cache _ _ _ _ _ _ _ N' H). rewrite (C72_no_cache _ _ _ _ _ _ _ N H2) in H2. exact H2.
Qed.
Print Assumptions C97_without_cache.

(** In an Excel workbook the name of the sheet matters too, and nothing else. *)
Theorem C97_excel : forall V o a a' c c' s (b : workbook V), config_of o a = Ok c -> config_of o a' = Ok c' ->
  a_safe a = a_safe a' -> a_input a = a_input a' -> a_sheet_name a = a_sheet_name a' -> write_workbook c s b = write_workbook c' s b.
Proof.
  intros V o a a' c c' s b H H' Q I N. unfold write_workbook.
  assert (X : c_sheet_name c = c_sheet_name c').
  { pose proof (config_sheet _ _ _ H) as X. pose proof (config_sheet _ _ _ H') as X'. unfold asked_sheet, main_name in X, X'. rewrite <- I, <- N in X'. destruct X as [X|[X1 X]], X' as [X'|[X2 X']]; congruence. }
  destruct (config_fields _ _ _ H) as (_ & _ & _ & _ & -> & _). destruct (config_fields _ _ _ H') as (_ & _ & _ & _ & -> & _). rewrite Q, X. reflexivity.
Qed.
Print Assumptions C97_excel.

Definition ex_other : cli_args :=
  {| a_backup := true; a_google_sheet_id := None; a_credentials := Some (lit "key.json"); a_key_values := map lit ["y=3"; "x=2"]%string; a_no_cache := true;
     a_output_filename := Some (file_named "out.csv"); a_safe := false; a_sheet_name := Some (lit "another"); a_verbose := 4; a_x_offset := 0; a_y_offset := 7;
     a_input := {| p_dir := []; p_name := Some (lit "main.csvpp") |} |}.
Notation ex_these := (ex_cli ["x=1"; "x=2"; "y=3"]%string false true 0 "out.csv").
Example C97_nonvacuous : same_files_world ex_world ex_world /\ csv_output ex_these (file_named "out.csv") /\ same_request ex_these ex_other
  /\ accepted (oracle_of ex_world) ex_these /\ accepted (oracle_of ex_world) ex_other /\ same_arguments (oracle_of ex_world) (a_key_values ex_these) (a_key_values ex_other)
  /\ runs ex_world ex_these ex_src (ex_target "b") Exit0 ex_src (snd (ex_final ex_these (ex_target "b")))
  /\ out_text ex_these (ex_target "b") = Some (lit ("a,=2" ++ nl)%string).
Proof.
  split; [unfold same_files_world; auto|]. split; [repeat split|]. split; [repeat split|].
  split; [|split; [|split; [|split]]].
  - apply config_accepted. eexists. vm_compute. reflexivity.
  - apply config_accepted. eexists. vm_compute. reflexivity.
  - refine (proj2 (same_arguments_parsed _ _ _ [(lit "x", NInt false None 2); (lit "y", NInt false None 3)] [(lit "y", NInt false None 3); (lit "x", NInt false None 2)] _ _) _); [vm_compute; reflexivity..|].
    intro k. cbn [assoc]. destruct (str_eqb_spec k (lit "x")) as [E|]; destruct (str_eqb_spec k (lit "y")) as [E'|]; try reflexivity. rewrite E in E'. discriminate E'.
  - apply ex_runs; [vm_compute; reflexivity|discriminate].
  - vm_compute. reflexivity.
Qed.
