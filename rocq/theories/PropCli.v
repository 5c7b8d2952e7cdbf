(** * PropCli: runs of the whole program from the command line (C71, C72, C74). *)
From Verif Require Import Base BaseProofs Csvp Ast AstParser Eval Options Sheet Loader LoaderSpec LoaderProofs LoaderProofs3 Targets Files Cli PropCell PropLoader PropCache PropTarget PropFiles.

(** ** C71: a failed run says why *)
(** A command line that is accepted: every -k argument is name=formula, at most -vvvv, and the name of the sheet is given or can be taken
    from the name of the input file. *)
Definition key_value (o : oracle) (kv k : str) (n : node) : Prop := exists v, kv = k ++ c_eq :: v /\ ~ In c_eq k /\ ast_parse o false v = Ok n.
Definition accepted (o : oracle) (a : cli_args) : Prop :=
  (forall kv, In kv (a_key_values a) -> exists k n, key_value o kv k n) /\ (a_verbose a <= 4)%N /\ (a_sheet_name a <> None \/ p_name (a_input a) <> None).
Definition oracle_of (w : world) : oracle := co_oracle (e_co (w_env w)).

Lemma split_once_spec c s : match split_once c s with Some (a, b) => s = a ++ c :: b /\ ~ In c a | None => ~ In c s end.
Proof.
  induction s as [|x s IH]; cbn [split_once]; [tauto|]. destruct (N.eqb_spec x c) as [->|N]; [split; [reflexivity|tauto]|].
  destruct (split_once c s) as [[a b]|]; cbn [In].
  - destruct IH as [-> IH]. split; [reflexivity|]. tauto.
  - tauto.
Qed.
Lemma split_at (c : char) (a b a' b' : str) : a ++ c :: b = a' ++ c :: b' -> ~ In c a -> ~ In c a' -> a = a' /\ b = b'.
Proof.
  revert a'. induction a as [|x a IH]; intros a' H N N'; destruct a' as [|y a']; cbn [app In] in *.
  - injection H as H. auto.
  - injection H as <- _. exfalso. apply N'. left. reflexivity.
  - injection H as -> _. exfalso. apply N. left. reflexivity.
  - injection H as <- H. destruct (IH a' H) as [-> ->]; tauto.
Qed.
Lemma key_value_step o kv k n rest acc : key_value o kv k n -> parse_key_values o (kv :: rest) acc = parse_key_values o rest (assoc_insert k n acc).
Proof.
  intros [v [-> [Nk P]]]. cbn [parse_key_values]. pose proof (split_once_spec c_eq (k ++ c_eq :: v)) as H. destruct (split_once c_eq (k ++ c_eq :: v)) as [[a b]|].
  - destruct H as [E Na]. destruct (split_at _ _ _ _ _ E Nk Na) as [<- <-]. rewrite P. reflexivity.
  - exfalso. apply H, in_or_app. right. left. reflexivity.
Qed.
Lemma key_values_ok o : forall kvs acc, (exists r, parse_key_values o kvs acc = Ok r) <-> (forall kv, In kv kvs -> exists k n, key_value o kv k n).
Proof.
  induction kvs as [|kv kvs IH]; intro acc; [cbn; split; [intros _ ? []|eauto]|]. split.
  - intros [r H] kv' I. cbn [parse_key_values] in H. pose proof (split_once_spec c_eq kv) as Sp. destruct (split_once c_eq kv) as [[k v]|]; [|discriminate H].
    destruct (ast_parse o false v) as [n| | |] eqn:P; try discriminate H. destruct I as [<-|I].
    + exists k, n, v. tauto.
    + revert kv' I. apply (IH (assoc_insert k n acc)). eauto.
  - intro H. destruct (H kv (or_introl eq_refl)) as (k & n & K). rewrite (key_value_step _ _ _ _ _ _ K). apply IH. intros; apply H; right; assumption.
Qed.
Lemma verbosity_spec v : (v <= 4)%N /\ (exists l, u8_into_level_filter v = Ok l) \/ (4 < v)%N /\ u8_into_level_filter v = Err (TooVerbose v).
Proof.
  destruct v as [|p]; [left; split; [lia|eexists; reflexivity]|].
  do 3 (destruct p as [p|p|]; try (left; split; [lia|eexists; reflexivity])); try (right; split; [lia|reflexivity]).
Qed.
Lemma sheet_name_spec a : (a_sheet_name a <> None \/ p_name (a_input a) <> None) /\ (exists n, sheet_name a = Ok n)
  \/ a_sheet_name a = None /\ p_name (a_input a) = None /\ sheet_name a = Err NoBaseName.
Proof.
  unfold sheet_name, file_stem. destruct (a_sheet_name a) as [n|]; [left; split; [left; discriminate|eauto]|].
  destruct (p_name (a_input a)) as [n|]; cbn [option_map]; [left; split; [right; discriminate|eauto]|right; auto].
Qed.
Lemma config_accepted o a : (exists c, config_of o a = Ok c) <-> accepted o a.
Proof.
  unfold config_of, accepted. rewrite <- (key_values_ok o (a_key_values a) []). unfold config_try_from. split.
  - intros [c H]. destruct (parse_key_values o (a_key_values a) []) as [kv| | |]; try discriminate H. split; [eauto|].
    destruct (sheet_name_spec a) as [[Sn [n Q]]|[_ [_ Q]]]; rewrite Q in H; cbn [bind] in H; [|discriminate H].
    destruct (verbosity_spec (a_verbose a)) as [[V _]|[_ V]]; [auto|rewrite V in H; discriminate H].
  - intros [[kv ->] [V Sn]]. destruct (sheet_name_spec a) as [[_ [n ->]]|[A [B _]]]; [|tauto]. cbn [bind].
    destruct (verbosity_spec (a_verbose a)) as [[_ [l ->]]|[V' _]]; [|lia]. cbn [bind]. eauto.
Qed.
(** Once the command line is accepted, every run that fails prints an error. *)
Theorem C71_failures_are_reported_partial : forall w a S F printed S' F', accepted (oracle_of w) a ->
  runs w a S F (Exit1 printed) S' F' -> exists e, printed = Some e.
Proof.
  intros w a S F printed S' F' A H. apply config_accepted in A as [c0 A]. unfold oracle_of in A.
  remember (Exit1 printed) as res eqn:R. destruct H as [e H|H|c e H _|c o H _ _|c o name r S1 H Ho Hn C]; try discriminate R; try congruence; try (injection R as <-; eauto).
  destruct r as [m|e| |]; cbn [fst] in R; try discriminate R; [|injection R as <-; eauto].
  unfold deliver in R. destruct (target w c o) as [cr|e| |]; try discriminate R; [|injection R as <-; eauto].
  assert (X : forall G, fst (match write_target w c o cr (pr_sheet (m_program m)) G with (Written, F) => (Exit0, F) | (NotWrittenBecause e, F) => (Exit1 (Some e), F) | (WriterCrashed, F) => (EndsInPanic, F) end) = Exit1 printed -> exists e, printed = Some e).
  { intros G. destruct (write_target w c o cr _ G) as [[|e|] F1]; cbn [fst]; intro Q; try discriminate Q. injection Q as <-. eauto. }
  destruct (c_backup c); [|exact (X _ R)]. destruct (write_backup w o cr F) as [[|e|] F1]; [exact (X _ R)| |discriminate R]. injection R as <-. eauto.
Qed.
Print Assumptions C71_failures_are_reported_partial.
(** C71 refuted: if it is not accepted, nothing is printed (unless the parser panics): the program just exits with status 1. No file has been touched. *)
Theorem C71_silent_refuted : forall w a S F res S' F', ~ accepted (oracle_of w) a -> runs w a S F res S' F' ->
  (res = Exit1 None \/ res = EndsInPanic) /\ S' = S /\ F' = F.
Proof.
  intros w a S F res S' F' A H. destruct H as [e H|H|c e H|c o H|c o name r S1 H]; auto; exfalso; apply A, config_accepted; unfold oracle_of; eauto.
Qed.
Print Assumptions C71_silent_refuted.
Theorem C71_too_verbose_refuted : forall w a S F, (forall kv, In kv (a_key_values a) -> exists k n, key_value (oracle_of w) kv k n) -> (4 < a_verbose a)%N ->
  runs w a S F (Exit1 None) S F /\ forall res S' F', runs w a S F res S' F' -> res = Exit1 None /\ S' = S /\ F' = F.
Proof.
  intros w a S F K V. assert (X : exists e, config_of (oracle_of w) a = Err e).
  { apply (key_values_ok (oracle_of w) (a_key_values a) []) in K as [kv K]. unfold config_of. rewrite K. unfold config_try_from.
    destruct (sheet_name_spec a) as [[_ [n ->]]|[_ [_ ->]]]; cbn [bind]; [|eauto]. destruct (verbosity_spec (a_verbose a)) as [[V' _]|[_ ->]]; [lia|]. cbn [bind]. eauto. }
  destruct X as [e X]. unfold oracle_of in X. split; [eapply r_not_set_up; eauto|]. intros res S' F' H. destruct H as [? H|H|? ? H|? ? H|? ? ? ? ? H]; rewrite X in H; try discriminate H. auto.
Qed.
Print Assumptions C71_too_verbose_refuted.
Theorem C71_bad_key_value_refuted : forall w a S F kv before after, a_key_values a = before ++ kv :: after ->
  (forall kv, In kv before -> exists k n, key_value (oracle_of w) kv k n) ->
  (~ In c_eq kv \/ exists k v e, kv = k ++ c_eq :: v /\ ~ In c_eq k /\ ast_parse (oracle_of w) false v = Err e) ->
  runs w a S F (Exit1 None) S F /\ forall res S' F', runs w a S F res S' F' -> res = Exit1 None /\ S' = S /\ F' = F.
Proof.
  intros w a S F kv before after Q K B. assert (X : exists e, config_of (oracle_of w) a = Err e).
  { unfold config_of. rewrite Q. assert (Y : forall acc, exists e, parse_key_values (oracle_of w) (before ++ kv :: after) acc = Err e).
    { clear Q. induction before as [|kv0 before IH]; intro acc; cbn [app].
      - cbn [parse_key_values]. pose proof (split_once_spec c_eq kv) as Sp. destruct (split_once c_eq kv) as [[k v]|]; [|eauto]. destruct Sp as [-> Nk].
        destruct B as [B|(k' & v' & e & E & Nk' & P)]; [exfalso; apply B, in_or_app; right; left; reflexivity|]. destruct (split_at _ _ _ _ _ E Nk Nk') as [-> ->]. rewrite P. eauto.
      - destruct (K kv0 (or_introl eq_refl)) as (k & n & Kv). rewrite (key_value_step _ _ _ _ _ _ Kv). apply IH. intros; apply K; right; assumption. }
    destruct (Y []) as [e ->]. eauto. }
  destruct X as [e X]. unfold oracle_of in X. split; [eapply r_not_set_up; eauto|]. intros res S' F' H. destruct H as [? H|H|? ? H|? ? H|? ? ? ? ? H]; rewrite X in H; try discriminate H. auto.
Qed.
Print Assumptions C71_bad_key_value_refuted.

(** ** C72: what the flags ask for is what happens *)
(** The output file named on the command line is a CSV file. *)
Definition csv_output (a : cli_args) (p : path) : Prop := a_google_sheet_id a = None /\ a_output_filename a = Some p /\ from_filename p = Ok (OutCsv p).
Lemma csv_chosen u a p : csv_output a p -> choose_output u (a_google_sheet_id a) (a_output_filename a) = Ok (OutCsv p).
Proof. intros [-> [-> H]]. exact H. Qed.
Lemma config_fields o a c : config_of o a = Ok c ->
  c_backup c = a_backup a /\ c_credentials c = a_credentials a /\ parse_key_values o (a_key_values a) [] = Ok (c_key_values c)
  /\ c_offset c = (a_x_offset a, a_y_offset a) /\ c_overwrite_values c = negb (a_safe a) /\ c_use_cache c = negb (a_no_cache a).
Proof.
  unfold config_of, config_try_from. destruct (parse_key_values o (a_key_values a) []) as [kv| | |]; try discriminate. destruct (sheet_name a) as [n| | |]; cbn [bind]; try discriminate.
  destruct (u8_into_level_filter (a_verbose a)); cbn [bind]; try discriminate. intro H. injection H as <-. cbn. auto 8.
Qed.
Definition main_name (a : cli_args) : option str := option_map (fun n => fst (stem_and_extension n)) (p_name (a_input a)).
(** A run that exits with status 0 has compiled the input file, with the cache unless --no-cache, with the values of the -k arguments. *)
Lemma exit0_compiled w a S F S' F' : runs w a S F Exit0 S' F' -> exists c o name m,
  config_of (oracle_of w) a = Ok c /\ choose_output (o_unicode (oracle_of w)) (a_google_sheet_id a) (a_output_filename a) = Ok o /\ main_name a = Some name
  /\ compiles (w_env w) (negb (a_no_cache a)) (c_key_values c) name S (Ok m, S') /\ deliver w c o m F = (Exit0, F').
Proof.
  intro H. remember Exit0 as res eqn:R. destruct H as [e H|H|c e H|c o H|c o name r S1 H Ho Hn C]; try discriminate R.
  destruct r as [m|e| |]; cbn [fst snd] in R; try discriminate R. exists c, o, (fst (stem_and_extension name)), m. unfold main_name. rewrite Hn. destruct (config_fields _ _ _ H) as (_ & _ & _ & _ & _ & U). rewrite <- U. cbn [fst snd]. rewrite (surjective_pairing (deliver w c o m F)), R. auto 8.
Qed.
(** delivering to a CSV file is the program of Files.v *)
Definition as_ended (r : main_result) : ended :=
  match r with Done => Exit0 | Failure e => Exit1 (Some (Unsuccessful e)) | Crashed => EndsInPanic | Hangs => NeverEnds end.
Lemma deliver_csv w c p m F : deliver w c (OutCsv p) m F =
  let (r, F') := main_program (w_read w) (w_creatable w) (w_writable w p) (w_now w) (c_backup c) (c_overwrite_values c) p (Ok m) F in (as_ended r, F').
Proof.
  unfold deliver, main_program. cbn [target write_target write_backup].
  assert (X : forall G, match (match write_csv (w_read w) (w_writable w p) (c_overwrite_values c) p (pr_sheet (m_program m)) G with (Done, F) => (Written, F) | (Failure e, F) => (NotWrittenBecause (Unsuccessful e), F) | (_, F) => (WriterCrashed, F) end) with (Written, F) => (Exit0, F) | (NotWrittenBecause e, F) => (Exit1 (Some e), F) | (WriterCrashed, F) => (EndsInPanic, F) end
    = let (r, F') := write_csv (w_read w) (w_writable w p) (c_overwrite_values c) p (pr_sheet (m_program m)) G in (as_ended r, F')).
  { intro G. unfold write_csv. destruct (match G p with Some text => _ | None => _ end); [destruct (w_writable w p)|]; reflexivity. }
  destruct (c_backup c); [|apply X]. destruct (backup_file _ _ F p) as [[q|e| |] F1]; try reflexivity. apply X.
Qed.
Lemma cell_at_bounds s i j c : cell_at s i j = Some c -> i < length (sheet_rows s) /\ j < widest_row s.
Proof.
  unfold cell_at. destruct (nth_error (sheet_rows s) i) as [r|] eqn:R; [|discriminate]. intro H. split; [apply nth_error_Some; congruence|].
  pose proof (widest_ge _ _ _ R). assert (j < length (row_cells r)) by (apply nth_error_Some; congruence). lia.
Qed.
(** the records of a file that is read before it is written; none if there is no file *)
Definition old_records (w : world) (F : files) (p : path) : option (list (list str)) := match F p with Some text => w_read w text | None => Some [] end.
(** Exit status 0 and a CSV file: the target has a record for each row of the compiled sheet, one field for each column of its widest row; each is what the sheet
    has there, or with --safe what was there before, if it was not empty. *)
Theorem C72_output : forall w a p S F S' F', csv_output a p -> runs w a S F Exit0 S' F' ->
  exists name kv m records rows, main_name a = Some name /\ parse_key_values (oracle_of w) (a_key_values a) [] = Ok kv
  /\ compiles (w_env w) (negb (a_no_cache a)) kv name S (Ok m, S') /\ old_records w F p = Some records
  /\ F' p = Some (csv_text rows) /\ length rows = length (sheet_rows (pr_sheet (m_program m))) /\ (forall r, In r rows -> length r = widest_row (pr_sheet (m_program m)))
  /\ forall i j c, cell_at (pr_sheet (m_program m)) i j = Some c ->
       at_ rows i j = Some (if a_safe a then match old_at records i j with [] => show_cell c | v => v end else show_cell c).
Proof.
  intros w a p S F S' F' Hp H. destruct (exit0_compiled _ _ _ _ _ _ H) as (c & o & name & m & Hc & Ho & Hn & C & D). rewrite (csv_chosen _ _ _ Hp) in Ho. injection Ho as <-.
  destruct (config_fields _ _ _ Hc) as (_ & _ & K & _ & Ov & _). rewrite deliver_csv in D. destruct (main_program _ _ _ _ _ _ _ _ _) as [r F1] eqn:M. injection D as Hr <-. destruct r; try discriminate Hr. clear Hr.
  destruct (C64_done _ _ _ _ _ _ _ _ _ _ M) as [(m0 & records & E & R & W) _]. injection E as <-. exists name, (c_key_values c), m, records, (csv_write (c_overwrite_values c) records (pr_sheet (m_program m))).
  destruct (C35_rectangular (c_overwrite_values c) records (pr_sheet (m_program m))) as [L1 L2]. repeat split; auto.
  intros i j c0 Hc0. assert (B : i < length (sheet_rows (pr_sheet (m_program m))) /\ j < widest_row (pr_sheet (m_program m))) by (eapply cell_at_bounds; eauto).
  rewrite C34_csv_cell by apply B. rewrite Hc0, Ov. destruct (a_safe a), (old_at records i j); reflexivity.
Qed.
Print Assumptions C72_output.

(** The values of the -k arguments: each name has the value of the last argument for it, and no other name has one. *)
Theorem C72_key_values : forall o kvs kv, parse_key_values o kvs [] = Ok kv ->
  forall k, (forall n, assoc k kv = Some n <-> exists before arg after, kvs = before ++ arg :: after /\ key_value o arg k n
                                               /\ forall arg', In arg' after -> ~ exists n', key_value o arg' k n')
            /\ (assoc k kv = None <-> forall arg, In arg kvs -> ~ exists n, key_value o arg k n).
Proof.
  intros o kvs kv H k. assert (G : forall kvs acc kv, parse_key_values o kvs acc = Ok kv ->
    (exists before arg after n, kvs = before ++ arg :: after /\ key_value o arg k n /\ (forall arg', In arg' after -> ~ exists n', key_value o arg' k n') /\ assoc k kv = Some n)
    \/ ((forall arg, In arg kvs -> ~ exists n, key_value o arg k n) /\ assoc k kv = assoc k acc)).
  { clear. induction kvs as [|arg kvs IH]; intros acc kv H; [right; injection H as <-; split; [intros ? []|reflexivity]|].
    assert (A : exists k0 n0, key_value o arg k0 n0) by (apply (key_values_ok o (arg :: kvs) acc); [eauto|left; reflexivity]). destruct A as (k0 & n0 & A).
    rewrite (key_value_step _ _ _ _ _ _ A) in H. destruct (IH _ _ H) as [(b & a & f & n & -> & K & L & E)|[L E]].
    - left. exists (arg :: b), a, f, n. auto.
    - rewrite E. destruct (str_eqb_spec k0 k) as [->|Nk].
      + left. exists [], arg, kvs, n0. rewrite assoc_insert_same. auto.
      + right. rewrite assoc_insert_other by congruence. split; [|reflexivity]. intros a [<-|I]; [|exact (L a I)]. intros (n & B).
        destruct A as (v & -> & N1 & _), B as (v' & Q & N2 & _). destruct (split_at _ _ _ _ _ Q N1 N2). congruence. }
  assert (U : forall arg n n', key_value o arg k n -> key_value o arg k n' -> n = n').
  { intros arg n n' (v & -> & N1 & P) (v' & Q & N2 & P'). destruct (split_at _ _ _ _ _ Q N1 N2) as [_ <-]. congruence. }
  destruct (G _ _ _ H) as [(b & a & f & n & -> & K & L & E)|[L E]].
  - split.
    + intro n'. rewrite E. split; [intro Q; injection Q as <-; exists b, a, f; auto|]. intros (b' & a' & f' & Q & K' & L'). f_equal.
      assert (X : a = a'); [|subst a'; eapply U; eauto].
      clear -Q K K' L L'. revert b' Q. induction b as [|x b IH]; intros b' Q; destruct b' as [|y b']; cbn [app] in Q.
      * congruence.
      * injection Q as <- Q. exfalso. apply (L a'); [rewrite Q; apply in_elt|eauto].
      * injection Q as -> Q. exfalso. apply (L' a); [rewrite <- Q; apply in_elt|eauto].
      * injection Q as _ Q. eapply IH; eauto.
    + rewrite E. split; [discriminate|]. intro Hn. exfalso. apply (Hn a); [apply in_elt|eauto].
  - cbn in E. split.
    + intro n. rewrite E. split; [discriminate|]. intros (b' & a' & f' & -> & K' & _). exfalso. apply (L a'); [apply in_elt|eauto].
    + tauto.
Qed.
Print Assumptions C72_key_values.
(** With --no-cache no object file is written or changed, whatever happens. *)
Theorem C72_no_cache : forall w a S F res S' F', a_no_cache a = true -> runs w a S F res S' F' -> S' = S.
Proof.
  intros w a S F res S' F' N H. destruct H as [e H|H|c e H|c o H|c o name r S1 H Ho Hn C]; auto.
  destruct (config_fields _ _ _ H) as (_ & _ & _ & _ & _ & U). rewrite N in U. rewrite U in C. cbn [negb] in C. inversion C as [main sh t order Lm R O Q| |]; subst; auto.
  pose proof (compile_with_no_cache (w_env w) (c_key_values c) main sh t order S) as X. rewrite Q in X. exact X.
Qed.
Print Assumptions C72_no_cache.
(** With --backup, a run that ends with status 0 has put the old contents of the target (a CSV file) into a new file. *)
Theorem C72_backup : forall w a p S F S' F', csv_output a p -> a_backup a = true -> runs w a S F Exit0 S' F' ->
  exists q, F q = None /\ F p <> None /\ F' q = F p.
Proof.
  intros w a p S F S' F' Hp B H. destruct (exit0_compiled _ _ _ _ _ _ H) as (c & o & name & m & Hc & Ho & Hn & C & D). rewrite (csv_chosen _ _ _ Hp) in Ho. injection Ho as <-.
  destruct (config_fields _ _ _ Hc) as (Bk & _). rewrite deliver_csv in D. destruct (main_program _ _ _ _ _ _ _ _ _) as [r F1] eqn:M. injection D as Hr <-. destruct r; try discriminate Hr. clear Hr.
  destruct (C64_done _ _ _ _ _ _ _ _ _ _ M) as (_ & _ & X). destruct X as (q & X1 & X2 & X3); [congruence|]. eauto.
Qed.
Print Assumptions C72_backup.
(** A run that ends in any other way leaves every file that was there, the target included, as it was (CSV). *)
Theorem C72_unsuccessful : forall w a p S F res S' F', csv_output a p -> runs w a S F res S' F' -> res <> Exit0 ->
  F' p = F p /\ forall r t, F r = Some t -> F' r = Some t.
Proof.
  intros w a p S F res S' F' Hp H N. destruct H as [e H|H|c e H|c o H|c o name r S1 H Ho Hn C]; auto.
  rewrite (csv_chosen _ _ _ Hp) in Ho. injection Ho as <-. destruct r as [m|e| |]; cbn [fst snd] in *; auto. rewrite deliver_csv in *.
  destruct (main_program _ _ _ _ _ _ _ _ _) as [r F1] eqn:M. cbn [fst snd] in *. eapply C64_failed; [exact M|]. intros ->. apply N. reflexivity.
Qed.
Print Assumptions C72_unsuccessful.
(** C72 refuted (1): the offsets make no difference to a CSV file. *)
Definition with_offset (a : cli_args) (x y : N) : cli_args :=
  {| a_backup := a_backup a; a_google_sheet_id := a_google_sheet_id a; a_credentials := a_credentials a; a_key_values := a_key_values a; a_no_cache := a_no_cache a;
     a_output_filename := a_output_filename a; a_safe := a_safe a; a_sheet_name := a_sheet_name a; a_verbose := a_verbose a; a_x_offset := x; a_y_offset := y; a_input := a_input a |}.
Theorem C72_offset_refuted : forall w a p x y S F res S' F', csv_output a p -> runs w a S F res S' F' -> runs w (with_offset a x y) S F res S' F'.
Proof.
  intros w a p x y S F res S' F' Hp H.
  assert (X : match config_of (oracle_of w) a, config_of (oracle_of w) (with_offset a x y) with
              | Ok c, Ok c' => c_key_values c = c_key_values c' /\ c_use_cache c = c_use_cache c' /\ c_backup c = c_backup c' /\ c_overwrite_values c = c_overwrite_values c'
              | Err e, Err e' => e = e' | Panic, Panic => True | NoFuel, NoFuel => True | _, _ => False end).
  { unfold config_of, config_try_from, with_offset, sheet_name. cbn [a_key_values a_sheet_name a_input a_verbose]. destruct (parse_key_values (oracle_of w) (a_key_values a) []); try exact I; [|reflexivity].
    destruct (a_sheet_name a); cbn [bind]; [destruct (u8_into_level_filter (a_verbose a)); cbn; auto|]. destruct (file_stem (a_input a)); cbn [bind]; [destruct (u8_into_level_filter (a_verbose a)); cbn; auto|reflexivity]. }
  assert (Hp' : csv_output (with_offset a x y) p) by exact Hp. unfold oracle_of in X.
  destruct H as [e H|H|c e H Ho|c o H Ho Hn|c o name r S1 H Ho Hn C]; rewrite H in X.
  - destruct (config_of _ (with_offset a x y)) eqn:Q; try contradiction. eapply r_not_set_up; eauto.
  - destruct (config_of _ (with_offset a x y)) eqn:Q; try contradiction. eapply r_set_up_panics; eauto.
  - destruct (config_of _ (with_offset a x y)) eqn:Q; try contradiction. eapply r_bad_output; eauto.
  - destruct (config_of _ (with_offset a x y)) eqn:Q; try contradiction. eapply r_no_input_name; eauto.
  - destruct (config_of _ (with_offset a x y)) as [c'| | |] eqn:Q; try contradiction. destruct X as (X1 & X2 & X3 & X4). rewrite (csv_chosen _ _ _ Hp) in Ho. injection Ho as <-.
    rewrite X1, X2 in C. pose proof (r_compiled w (with_offset a x y) S F c' (OutCsv p) name r S1 Q (csv_chosen _ _ _ Hp') Hn C) as R.
    destruct r as [m|e| |]; try exact R. rewrite deliver_csv in *. rewrite X3, X4. exact R.
Qed.
Print Assumptions C72_offset_refuted.
(** (2): an .ods file is accepted as the output and never written. *)
Theorem C72_open_document_refuted : forall w a p S F res S' F', a_google_sheet_id a = None -> a_output_filename a = Some p -> from_filename p = Ok (OutOpenDocument p) ->
  runs w a S F res S' F' -> res <> Exit0.
Proof.
  intros w a p S F res S' F' G O P H R. subst res. destruct (exit0_compiled _ _ _ _ _ _ H) as (c & o & name & m & _ & Ho & _ & _ & D). rewrite G, O in Ho. unfold choose_output in Ho. rewrite P in Ho. injection Ho as <-.
  unfold deliver in D. cbn [target write_target] in D. destruct (c_backup c); [|discriminate D]. destruct (write_backup _ _ _ _) as [[|e|] F1]; discriminate D.
Qed.
Print Assumptions C72_open_document_refuted.

(** ** C74: which credentials are used for Google Sheets *)
(** The file given by the flag, else the one named by the environment variable, else the well-known one in the home directory. *)
Definition well_known (home : str) : str := home ++ lit "/.config/gcloud/application_default_credentials.json".
Theorem C74_credentials_partial : forall home flag var present,
  let r := credentials_file (Some home) flag var present in
  (forall f, flag = Some f -> if present f then r = Ok f else r = Err (MissingCredentials f))
  /\ (forall f, flag = None -> var = Some f -> if present f then r = Ok f else r = Err (MissingCredentials f))
  /\ (flag = None -> var = None -> if present (well_known home) then r = Ok (well_known home) else r = Err NoCredentials).
Proof.
  intros home flag var present. unfold credentials_file, adc_path. fold (well_known home). split; [|split].
  - intros f ->. cbn [bind]. destruct (present f); reflexivity.
  - intros f -> ->. cbn [bind]. destruct (present f); reflexivity.
  - intros -> ->. cbn [bind]. destruct (present (well_known home)) eqn:P; cbn [bind]; [rewrite P|]; reflexivity.
Qed.
Print Assumptions C74_credentials_partial.
(** C74 refuted: without a home directory not even the file given by the flag is used. *)
Theorem C74_no_home_refuted : forall flag var present, credentials_file None flag var present = Err NoHome.
Proof. reflexivity. Qed.
Print Assumptions C74_no_home_refuted.
(** Without credentials no run with a Google sheet as output ends with status 0. *)
Theorem C74_no_credentials : forall w a id S F S' F' e, a_google_sheet_id a = Some id ->
  credentials_file (w_home w) (a_credentials a) (w_credentials_var w) (w_present w) = Err e -> ~ runs w a S F Exit0 S' F'.
Proof.
  intros w a id S F S' F' e G Cr H. destruct (exit0_compiled _ _ _ _ _ _ H) as (c & o & name & m & Hc & Ho & _ & _ & D). rewrite G in Ho. unfold choose_output, from_google_sheet_id in Ho.
  destruct (forallb _ id); [|discriminate Ho]. injection Ho as <-. unfold deliver, target in D. destruct (config_fields _ _ _ Hc) as (_ & X & _). rewrite X, Cr in D. discriminate D.
Qed.
Print Assumptions C74_no_credentials.

(** *** Examples *)
Definition ex_world : world := {| w_env := ex_E 5; w_read := fun t => Some (csv_read t); w_creatable := fun _ => true; w_writable := fun _ => true; w_now := ex_now;
  w_excel := fun _ _ _ F => (WriterCrashed, F); w_google_backup := fun _ _ => WriterCrashed; w_google := fun _ _ _ _ => WriterCrashed;
  w_home := Some (lit "/home/me"); w_credentials_var := None; w_present := fun _ => false |}.
Definition ex_cli (kvs : list string) (safe backup : bool) (v : N) (out : string) : cli_args :=
  {| a_backup := backup; a_google_sheet_id := None; a_credentials := None; a_key_values := map lit kvs; a_no_cache := true; a_output_filename := Some (file_named out);
     a_safe := safe; a_sheet_name := None; a_verbose := v; a_x_offset := 3; a_y_offset := 0; a_input := {| p_dir := []; p_name := Some (lit "main.csvpp") |} |}.
Definition ex_src : fs := ex_files [(["main"], "a,=x", 1)]%string.
Definition ex_final (a : cli_args) (F : files) : ended * files :=
  match config_of (oracle_of ex_world) a, ex_run (ex_E 5) false (match config_of (oracle_of ex_world) a with Ok c => c_key_values c | _ => [] end) "main" ex_src false [["main"]]%string with
  | Ok c, Some (Ok m, _) => deliver ex_world c (OutCsv (file_named "out.csv")) m F
  | _, _ => (NeverEnds, F)
  end.
Lemma ex_runs kvs safe backup v F r : fst (ex_final (ex_cli kvs safe backup v "out.csv") F) = r -> r <> NeverEnds ->
  runs ex_world (ex_cli kvs safe backup v "out.csv") ex_src F r ex_src (snd (ex_final (ex_cli kvs safe backup v "out.csv") F)).
Proof.
  unfold ex_final. destruct (config_of _ _) as [c| | |] eqn:C; try (intros <-; contradiction). unfold ex_run.
  destruct (exec_compile _ _ _ _ _ _ _ _) as [[[m| | |] S']|] eqn:X; try (intros <-; contradiction). intros R _. apply exec_compile_sound in X.
  assert (U : c_use_cache c = false) by (apply config_fields in C; apply C).
  assert (ES : S' = ex_src).
  { inversion X as [main sh t order Lm Rn O Q| |]. pose proof (compile_with_no_cache (ex_E 5) (c_key_values c) main sh t order ex_src) as Y. rewrite Q in Y. exact Y. }
  subst S'. assert (X2 : compiles (ex_E 5) (c_use_cache c) (c_key_values c) (lit "main") ex_src (Ok m, ex_src)) by (rewrite U; exact X).
  pose proof (r_compiled ex_world (ex_cli kvs safe backup v "out.csv") ex_src F c (OutCsv (file_named "out.csv")) (lit "main.csvpp") (Ok m) ex_src C eq_refl eq_refl X2) as Z.
  rewrite <- R. exact Z.
Qed.
Example C71_nonvacuous : accepted (oracle_of ex_world) (ex_cli ["x=1"]%string false true 4 "out.csv")
  /\ (exists e F', runs ex_world (ex_cli ["x=1"]%string false true 4 "out.csv") ex_src (fun _ => None) (Exit1 (Some e)) ex_src F')
  /\ ~ accepted (oracle_of ex_world) (ex_cli ["x"]%string false true 4 "out.csv") /\ ~ accepted (oracle_of ex_world) (ex_cli [] false true 5 "out.csv").
Proof.
  split; [|split; [|split]].
  - split; [|split; [cbn; lia|right; discriminate]]. intros kv [<-|[]]. exists (lit "x"), (NInt false None 1), (lit "1"). split; [reflexivity|]. split; [|vm_compute; reflexivity]. intros [H|[]]; discriminate H.
  - eexists (Unsuccessful (BackupFailed (CopyFailed _))), _. eapply ex_runs; [vm_compute; reflexivity|discriminate].
  - intros [H _]. destruct (H _ (or_introl eq_refl)) as (k & n & v & Q & _). destruct k as [|? [|? k]]; discriminate Q.
  - intros (_ & H & _). cbn in H. lia.
Qed.
Definition ex_target (s : string) : files := one_file (file_named "out.csv") s.
Definition out_text (a : cli_args) (F : files) : option str := snd (ex_final a F) (file_named "out.csv").
Example C72_nonvacuous : csv_output (ex_cli ["x=1"; "x=2"]%string false false 0 "out.csv") (file_named "out.csv")
  /\ runs ex_world (ex_cli ["x=1"; "x=2"]%string false false 0 "out.csv") ex_src (ex_target "b") Exit0 ex_src (snd (ex_final (ex_cli ["x=1"; "x=2"]%string false false 0 "out.csv") (ex_target "b")))
  /\ out_text (ex_cli ["x=1"; "x=2"]%string false false 0 "out.csv") (ex_target "b") = Some (lit ("a,=2" ++ nl)%string) /\ out_text (ex_cli ["x=1"; "x=2"]%string true false 0 "out.csv") (ex_target "b") = Some (lit ("b,=2" ++ nl)%string)
  /\ runs ex_world (ex_cli ["x=1"; "x=2"]%string true true 0 "out.csv") ex_src (ex_target "b") Exit0 ex_src (snd (ex_final (ex_cli ["x=1"; "x=2"]%string true true 0 "out.csv") (ex_target "b")))
  /\ snd (ex_final (ex_cli ["x=1"; "x=2"]%string true true 0 "out.csv") (ex_target "b")) (file_named "out-2024_03_07.csv") = Some (lit "b").
Proof.
  split; [repeat split|]. split; [apply ex_runs; [vm_compute; reflexivity|discriminate]|]. split; [vm_compute; reflexivity|]. split; [vm_compute; reflexivity|].
  split; [apply ex_runs; [vm_compute; reflexivity|discriminate]|vm_compute; reflexivity].
Qed.
Example C72_open_document_nonvacuous : from_filename (file_named "out.ods") = Ok (OutOpenDocument (file_named "out.ods")).
Proof. reflexivity. Qed.
Example C74_nonvacuous : credentials_file (Some (lit "/root")) None None (fun f => str_eqb f (well_known (lit "/root"))) = Ok (lit "/root/.config/gcloud/application_default_credentials.json")
  /\ credentials_file (Some (lit "/root")) (Some (lit "a")) (Some (lit "b")) (fun f => str_eqb f (lit "b")) = Err (MissingCredentials (lit "a")).
Proof. vm_compute. auto. Qed.

(** ** C75: where the program is run from does not matter *)
(** [seen_from G d F]: the directory of [F] is the directory [d] of [G]; file names are relative to the directory the program is run from. *)
Definition seen_from (G : fs) (d : str) (F : fs) : Prop := forall f, sources G (d :: f) = sources F f /\ objects G (d :: f) = objects F f.
(** Without usable object code, the main module is the same wherever the program is run. *)
Theorem C75_from_source_partial : forall E F G d name, seen_from G d F -> no_object F [name] ->
  match load_from_cache_from_filename E F [name] [name], load_from_cache_from_filename E G [name] [d; name] with
  | Ok m, Ok m' => m_program m = m_program m' /\ m_path m = m_path m' /\ m_needs_eval m = m_needs_eval m'
  | Err (Unreadable f), Err (Unreadable f') => f' = d :: f
  | Err (BadSource f e), Err (BadSource f' e') => f' = d :: f /\ e' = e
  | Panic, Panic => True
  | NoFuel, NoFuel => True
  | _, _ => False
  end.
Proof.
  intros E F G d name H N. unfold load_from_cache_from_filename, load_from_object. rewrite (proj2 (H [name])). unfold no_object in N.
  assert (X : match load_from_source E F [name] [name], load_from_source E G [name] [d; name] with
    | Ok m, Ok m' => m_program m = m_program m' /\ m_path m = m_path m' /\ m_needs_eval m = m_needs_eval m'
    | Err (Unreadable f), Err (Unreadable f') => f' = d :: f | Err (BadSource f e), Err (BadSource f' e') => f' = d :: f /\ e' = e | Panic, Panic => True | NoFuel, NoFuel => True | _, _ => False end).
  { unfold load_from_source. rewrite (proj1 (H [name])). destruct (sources F [name]) as [[text t]|]; [|reflexivity]. destruct (load_source (e_co E) text); cbn; auto. }
  destruct (objects F [name]) as [[[m|] t]|]; [contradiction|exact X..].
Qed.
Print Assumptions C75_from_source_partial.
(** C75 refuted (1): the object file has the name of the source as it was given when it was compiled. Compiled in its directory and then run from the
    directory above, a program does not compile any more. *)
Theorem C75_elsewhere_refuted : forall E kv name F m F' E2 G d, compiles E true kv name F (Ok m, F') -> no_object F [name] \/ older_object F [name] ->
  seen_from G d F' -> objects G [name] = None ->
  load_from_cache_from_filename E2 G [name] [d; name] = Err (Unstatable [name]).
Proof.
  intros E kv name F m F' E2 G d C No H O. assert (X : objects F' [name] = Some (ODecoded m, e_now E) /\ m_file m = [name]).
  { inversion C as [main sh t order Lm R Or Q| |]; clear C. rewrite main_not_clean in Lm by exact No. unfold load_from_source in Lm. destruct (sources F [name]) as [[text tm]|]; [|discriminate Lm].
    destruct (load_source (e_co E) text); try discriminate Lm. injection Lm as <-. unfold compile_with in Q. destruct (panicked t); [discriminate Q|].
    unfold load_main in Q. destruct (any_dirty _ _); [discriminate Q|]. destruct (eval_dependencies _ _ _ _ _) as [[ld|e| |] F1]; try discriminate Q.
    unfold merge_direct_dependencies in Q. destruct (failed sh); [|discriminate Q]. destruct (merge_required _ _ _) as [sc|]; [|discriminate Q].
    unfold finish in Q. cbn [m_needs_eval with_flags with_scope] in Q. destruct (main_eval _ _ _ kv) as [p'|e| |]; try discriminate Q.
    unfold write_object in Q. destruct (e_writable E _); [|discriminate Q]. injection Q as <- <-. cbn [objects m_file with_flags with_program with_scope]. destruct (path_eqb_spec [name] [name]); [auto|contradiction]. }
  destruct X as [X1 X2]. unfold load_from_cache_from_filename, load_from_object. rewrite (proj2 (H [name])), X1. unfold check_if_is_dirty. rewrite X2, O. reflexivity.
Qed.
Print Assumptions C75_elsewhere_refuted.
(** (2): and if there is a program of that name there as well, it is that program's files whose times are compared: the one asked for may have been edited since, and the old result is taken. *)
Theorem C75_wrong_files_refuted : forall E G d name m t text t2 obj t3, objects G [d; name] = Some (ODecoded m, t) -> m_file m = [name] -> m_version m <= e_version E ->
  sources G [name] = Some (text, t2) -> objects G [name] = Some (obj, t3) -> t2 <= t3 ->
  exists m', load_from_cache_from_filename E G [name] [d; name] = Ok m' /\ m_program m' = m_program m.
Proof.
  intros E G d name m t text t2 obj t3 O Mf V Sr Ob T. unfold load_from_cache_from_filename, load_from_object. rewrite O. unfold check_if_is_dirty. rewrite Mf, Ob, Sr.
  destruct (Nat.ltb_spec t3 t2); [lia|]. cbn [bind m_dirty with_flags]. destruct (Nat.ltb_spec (e_version E) (m_version m)); [lia|]. eexists. split; [reflexivity|]. reflexivity.
Qed.
Print Assumptions C75_wrong_files_refuted.
Definition below (d : str) (F : fs) : fs :=
  {| sources := fun f => match f with x :: f => if str_eqb x d then sources F f else None | [] => None end;
     objects := fun f => match f with x :: f => if str_eqb x d then objects F f else None | [] => None end |}.
Example C75_nonvacuous : seen_from (below (lit "dir") ex_src) (lit "dir") ex_src /\ no_object ex_src [lit "main"]
  /\ (exists F', yields (ex_E 5) true [] "main" ex_src (Ok [[lit "a"; lit "=x"]]) F')
  /\ (forall F', seen_from (below (lit "dir") F') (lit "dir") F' /\ objects (below (lit "dir") F') [lit "main"] = None).
Proof.
  assert (X : forall F', seen_from (below (lit "dir") F') (lit "dir") F') by (intros F' f; split; reflexivity).
  split; [apply X|]. split; [exact I|]. split; [eexists; apply (ex_run_yields _ _ _ _ _ false [["main"]]%string); vm_compute; reflexivity|]. intro F'. split; [apply X|reflexivity].
Qed.

(** ** C76: only the sheet that is named is written *)
(** Writing to an Excel workbook succeeds; it changes the worksheet of the given name, which is added at the end if there is none; the others stay as and where they are. *)
Theorem C76_excel : forall V c s (b : workbook V), exists b', write_workbook c s b = Some b'
  /\ map fst b' = map fst b ++ (if str_in (c_sheet_name c) (map fst b) then [] else [c_sheet_name c])
  /\ assoc (c_sheet_name c) b' = Some (build_worksheet (c_overwrite_values c) s (match assoc (c_sheet_name c) b with Some w => w | None => empty_worksheet end))
  /\ forall i n w, nth_error b i = Some (n, w) -> n <> c_sheet_name c -> nth_error b' i = Some (n, w).
Proof.
  intros V c s b. unfold write_workbook. set (name := c_sheet_name c). set (ch := build_worksheet (c_overwrite_values c) s).
  assert (X : forall b : workbook V, match assoc name b with
    | Some w => exists b', change_worksheet name ch b = Some b' /\ map fst b' = map fst b /\ assoc name b' = Some (ch w) /\ (forall i n w, nth_error b i = Some (n, w) -> n <> name -> nth_error b' i = Some (n, w)) /\ In name (map fst b)
    | None => ~ In name (map fst b) /\ exists b', change_worksheet name ch (b ++ [(name, empty_worksheet)]) = Some b' /\ map fst b' = map fst b ++ [name] /\ assoc name b' = Some (ch empty_worksheet)
                /\ (forall i n w, nth_error b i = Some (n, w) -> n <> name -> nth_error b' i = Some (n, w)) end).
  { clear b. induction b as [|[n w] b IH]; cbn [assoc app change_worksheet map fst In].
    - split; [tauto|]. destruct (str_eqb_spec name name) as [_|N]; [|contradiction]. eexists. split; [reflexivity|]. cbn [map fst assoc]. destruct (str_eqb_spec name name) as [_|N]; [|contradiction]. repeat split; auto. intros i ? ? H; destruct i; discriminate H.
    - destruct (str_eqb_spec name n) as [<-|N].
      + eexists. split; [reflexivity|]. cbn [map fst assoc]. destruct (str_eqb_spec name name) as [_|N]; [|contradiction]. repeat split; auto. intros [|i] n' w' H Nn; cbn [nth_error] in *; [congruence|exact H].
      + destruct (assoc name b) as [w0|].
        * destruct IH as (b' & -> & M & A & Nt & I). eexists. split; [reflexivity|]. cbn [map fst assoc]. rewrite M. destruct (str_eqb_spec name n) as [|_]; [contradiction|]. repeat split; auto. intros [|i] n' w' H Nn; cbn [nth_error] in *; [exact H|eauto].
        * destruct IH as (I & b' & -> & M & A & Nt). split; [intros [Q|Q]; [congruence|contradiction]|]. eexists. split; [reflexivity|]. cbn [map fst assoc]. rewrite M. destruct (str_eqb_spec name n) as [|_]; [contradiction|]. repeat split; auto. intros [|i] n' w' H Nn; cbn [nth_error] in *; [exact H|eauto]. }
  specialize (X b). unfold create_worksheet. destruct (assoc name b) as [w|].
  - destruct X as (b' & -> & M & A & Nt & I). exists b'. rewrite M, (proj2 (str_in_spec _ _) I), app_nil_r. auto.
  - destruct X as (I & b' & -> & M & A & Nt). exists b'. rewrite M. destruct (str_in name (map fst b)) eqn:Q; [apply str_in_spec in Q; contradiction|]. auto.
Qed.
Print Assumptions C76_excel.
(** C76 refuted for Google: what is sent does not depend on the name of the sheet. *)
Definition with_sheet_name (c : config) (name : str) : config :=
  {| c_backup := c_backup c; c_credentials := c_credentials c; c_key_values := c_key_values c; c_offset := c_offset c; c_overwrite_values := c_overwrite_values c;
     c_sheet_name := name; c_use_cache := c_use_cache c; c_verbosity := c_verbosity c |}.
Theorem C76_google_refuted : forall V c name (ex : list (list (existing V))) s, google_write (with_sheet_name c name) ex s = google_write c ex s.
Proof. reflexivity. Qed.
Print Assumptions C76_google_refuted.
(** nor does the Excel file depend on the offsets *)
Definition with_offsets (c : config) (x y : N) : config :=
  {| c_backup := c_backup c; c_credentials := c_credentials c; c_key_values := c_key_values c; c_offset := (x, y); c_overwrite_values := c_overwrite_values c;
     c_sheet_name := c_sheet_name c; c_use_cache := c_use_cache c; c_verbosity := c_verbosity c |}.
Theorem C72_excel_offset_refuted : forall V c x y s (b : workbook V), write_workbook (with_offsets c x y) s b = write_workbook c s b.
Proof. reflexivity. Qed.
Print Assumptions C72_excel_offset_refuted.
Definition ex_config (name : string) : config :=
  {| c_backup := false; c_credentials := None; c_key_values := []; c_offset := (0, 0)%N; c_overwrite_values := true; c_sheet_name := lit name; c_use_cache := true; c_verbosity := LError |}.
Example C76_nonvacuous : let b := [(lit "one", @empty_worksheet unit); (lit "two", empty_worksheet)] in
  option_map (map fst) (write_workbook (ex_config "two") ex_new b) = Some [lit "one"; lit "two"]
  /\ option_map (map fst) (write_workbook (ex_config "three") ex_new b) = Some [lit "one"; lit "two"; lit "three"]
  /\ match write_workbook (ex_config "two") ex_new b with Some b => option_map (fun w => match ws_cells w {| addr_x := 0; addr_y := 0 |} with Some x => x_set x | None => EnNothing end) (assoc (lit "two") b) | None => None end = Some (EnText (lit "a")).
Proof. vm_compute. auto. Qed.

(** C72: the flags reach the writers of the other targets. *)
(** -v, -vv and so on show one kind of message more each; without it only errors are shown. *)
Theorem C72_verbosity : forall o a c, config_of o a = Ok c ->
  nth_error [LError; LWarn; LInfo; LDebug; LTrace] (N.to_nat (a_verbose a)) = Some (c_verbosity c).
Proof.
  intros o a c. unfold config_of, config_try_from. destruct (parse_key_values o (a_key_values a) []) as [kv| | |]; try discriminate. destruct (sheet_name a) as [n| | |]; cbn [bind]; try discriminate.
  destruct (u8_into_level_filter (a_verbose a)) as [l| | |] eqn:V; cbn [bind]; try discriminate. intro H. injection H as <-. cbn [c_verbosity].
  destruct (a_verbose a) as [|p]; [injection V as <-; reflexivity|].
  do 3 (destruct p as [p|p|]; try discriminate V; try (injection V as <-; reflexivity)).
Qed.
Print Assumptions C72_verbosity.
(** The name of the sheet is the one given with --sheet-name, or else the name of the input file without its extension. *)
Definition asked_sheet (a : cli_args) (name : str) : Prop :=
  a_sheet_name a = Some name \/ a_sheet_name a = None /\ main_name a = Some name.
Lemma config_sheet o a c : config_of o a = Ok c -> asked_sheet a (c_sheet_name c).
Proof.
  unfold config_of, config_try_from, sheet_name, file_stem, asked_sheet, main_name. destruct (parse_key_values o (a_key_values a) []) as [kv| | |]; try discriminate.
  destruct (a_sheet_name a) as [n|]; cbn [bind].
  - destruct (u8_into_level_filter (a_verbose a)); cbn [bind]; try discriminate. intro H. injection H as <-. auto.
  - destruct (p_name (a_input a)) as [n|]; cbn [option_map bind]; try discriminate. destruct (u8_into_level_filter (a_verbose a)); cbn [bind]; try discriminate. intro H. injection H as <-. auto.
Qed.
(** Excel: the worksheet that is written is the one asked for, and --safe keeps what is there. *)
Theorem C72_excel : forall V o a c s (b : workbook V), config_of o a = Ok c -> exists name b', asked_sheet a name /\ write_workbook c s b = Some b'
  /\ assoc name b' = Some (build_worksheet (negb (a_safe a)) s (match assoc name b with Some w => w | None => empty_worksheet end))
  /\ forall i n w, nth_error b i = Some (n, w) -> n <> name -> nth_error b' i = Some (n, w).
Proof.
  intros V o a c s b H. pose proof (config_sheet _ _ _ H) as Hn. destruct (config_fields _ _ _ H) as (_ & _ & _ & _ & Ov & _).
  destruct (C76_excel V c s b) as (b' & H1 & _ & H2 & H3). exists (c_sheet_name c), b'. rewrite <- Ov. auto.
Qed.
Print Assumptions C72_excel.
(** Google Sheets (partial): up to 1000 rows and the same offset both ways, every cell arrives at its place and --safe keeps what is there. Missing: the other
    offsets and sizes (C36), which sheet it is (C76). *)
Theorem C72_google_partial : forall V o a c s (ex : list (list (existing V))) g, config_of o a = Ok c ->
  a_x_offset a = a_y_offset a -> (a_x_offset a < 2 ^ 31)%N -> length (sheet_rows s) <= 1000 ->
  exists qs, google_write c ex s = Ok qs /\ forall r col, apply_requests g qs (a_y_offset a + r)%N (a_x_offset a + col)%N
    = match wanted (negb (a_safe a)) ex (sheet_rows s) (N.to_nat r) (N.to_nat col) with Some x => x | None => g (a_y_offset a + r)%N (a_x_offset a + col)%N end.
Proof.
  intros V o a c s ex g H Hxy Hx Hl. destruct (config_fields _ _ _ H) as (_ & _ & _ & Of & Ov & _). unfold google_write. rewrite Of, Ov, <- Hxy.
  destruct (C36_places_partial V (negb (a_safe a)) (a_x_offset a) ex s g Hl Hx) as (qs & Q1 & Q2). exists qs. split; [exact Q1|]. intros r col. rewrite (Q2 (a_x_offset a + r)%N (a_x_offset a + col)%N).
  destruct (N.leb_spec (a_x_offset a) (a_x_offset a + r)); [|lia]. destruct (N.leb_spec (a_x_offset a) (a_x_offset a + col)); [|lia]. cbn [andb].
  replace (a_x_offset a + r - a_x_offset a)%N with r by lia. replace (a_x_offset a + col - a_x_offset a)%N with col by lia. reflexivity.
Qed.
Print Assumptions C72_google_partial.
Example C72_flags_nonvacuous : exists c, config_of (oracle_of ex_world) (ex_cli ["x=1"]%string true true 2 "out.csv") = Ok c
  /\ c_verbosity c = LInfo /\ c_overwrite_values c = false /\ asked_sheet (ex_cli ["x=1"]%string true true 2 "out.csv") (lit "main").
Proof. eexists. split; [vm_compute; reflexivity|]. split; [reflexivity|]. split; [reflexivity|]. right. split; reflexivity. Qed.
