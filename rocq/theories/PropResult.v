(** * PropResult: C98, every compilation can be carried through to a result. *)
From Verif Require Import Base BaseProofs Csvp Ast AstParser Eval Options CellParser Sheet Loader LoaderSpec LoaderProofs LoaderProofs2 LoaderProofs3 RunExists Files Cli PropCell PropSheet PropVariables PropLoader PropModules PropCli ReadTerminates.

(** Whatever the loader threads did so far, under any interleaving, with any import graph and any object files: they can go on, the modules that
    were loaded - also if they import each other - have an order in which to be evaluated, and with it the compilation has a result. *)
Theorem C98_never_stuck : forall E F use_cache kv name main sh t, finite_files F -> load_from_cache_from_filename E F [name] [name] = Ok main ->
  steps (load_one E F use_cache) (no_modules, TLoad None main) (sh, t) ->
  exists sh' t' order, steps (load_one E F use_cache) (sh, t) (sh', t') /\ finished t' = true /\ resolution_order main (loaded sh') order
    /\ compiles E use_cache kv name F (compile_with E use_cache kv main sh' t' order F).
Proof. exact can_go_on. Qed.
Print Assumptions C98_never_stuck.
Theorem C98_order : forall main loaded, exists order, resolution_order main loaded order.
Proof. exact order_exists. Qed.
Print Assumptions C98_order.
Theorem C98_result : forall E F use_cache kv name, finite_files F -> exists r, compiles E use_cache kv name F r.
Proof. exact compile_exists. Qed.
Print Assumptions C98_result.
(** from the command line: whatever is asked for, of whatever files *)
Theorem C98_command_line : forall w a S F, finite_files S -> exists res S' F', runs w a S F res S' F'.
Proof.
  intros w a S F Fi. set (o := co_oracle (e_co (w_env w))).
  assert (Kn : forall kvs acc, parse_key_values o kvs acc <> NoFuel).
  { induction kvs as [|kv kvs IH]; intro acc; cbn [parse_key_values]; [discriminate|]. destruct (split_once c_eq kv) as [[k v]|]; [|discriminate].
    pose proof (ast_parse_ends o false v) as X. destruct (ast_parse o false v); try discriminate; [apply IH|contradiction]. }
  destruct (config_of o a) as [c|e| |] eqn:Hc.
  - destruct (choose_output (o_unicode o) (a_google_sheet_id a) (a_output_filename a)) as [k|e| |] eqn:Ho.
    + destruct (p_name (a_input a)) as [name|] eqn:Hn; [|do 3 eexists; eapply r_no_input_name; eassumption].
      destruct (compile_exists (w_env w) S (c_use_cache c) (c_key_values c) (fst (stem_and_extension name)) Fi) as [[r S'] C]. do 3 eexists. eapply r_compiled; eassumption.
    + do 3 eexists. eapply r_bad_output; eassumption.
    + exfalso. revert Ho. unfold choose_output, from_google_sheet_id, from_filename. repeat match goal with |- context [match ?x with _ => _ end] => destruct x end; discriminate.
    + exfalso. revert Ho. unfold choose_output, from_google_sheet_id, from_filename. repeat match goal with |- context [match ?x with _ => _ end] => destruct x end; discriminate.
  - do 3 eexists. eapply r_not_set_up; exact Hc.
  - do 3 eexists. eapply r_set_up_panics; exact Hc.
  - exfalso. unfold config_of in Hc. specialize (Kn (a_key_values a) []). destruct (parse_key_values o (a_key_values a) []); try discriminate Hc; [|contradiction].
    unfold config_try_from, sheet_name, u8_into_level_filter in Hc. destruct (a_sheet_name a); [|destruct (file_stem _)]; cbn [bind] in Hc; try discriminate Hc;
      repeat match type of Hc with context [match ?x with _ => _ end] => destruct x; cbn [bind] in Hc; try discriminate Hc end.
Qed.
Print Assumptions C98_command_line.

(** modules that import each other, half loaded *)
Definition ex_ring : fs := ex_files [(["main"], "use a" ++ nl ++ "---" ++ nl ++ "=x", 1); (["a"], "use b" ++ nl ++ "x := 1" ++ nl ++ "---" ++ nl, 1); (["b"], "use a" ++ nl ++ "y := x" ++ nl ++ "---" ++ nl, 1)]%string.
Example C98_nonvacuous : finite_files ex_ring /\ exists sh, load_run (load_one (ex_E 5) ex_ring true) (PropLoader.ex_main ex_ring) sh TDone
  /\ leads_to (PropLoader.ex_main ex_ring) (loaded sh) [lit "a"] [lit "b"] /\ leads_to (PropLoader.ex_main ex_ring) (loaded sh) [lit "b"] [lit "a"]
  /\ (exists order, resolution_order (PropLoader.ex_main ex_ring) (loaded sh) order) /\ (exists r, compiles (ex_E 5) true [] (lit "main") ex_ring r).
Proof.
  assert (Fi : finite_files ex_ring) by apply ex_files_finite.
  split; [exact Fi|]. exists (fst (ex_end ex_ring false)).
  assert (H : snd (ex_end ex_ring false) = TDone) by (vm_compute; reflexivity).
  split; [split; [rewrite <- H, <- surjective_pairing; apply exec_steps|reflexivity]|].
  split; [apply l_one; vm_compute; auto|]. split; [apply l_one; vm_compute; auto|]. split; [apply C98_order|apply C98_result, Fi].
Qed.
