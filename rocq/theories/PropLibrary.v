(** * PropLibrary: C80, C81 and C91 for programs that use a library, whatever has happened in the directory. *)
From Verif Require Import Base BaseProofs Csvp SourceCode Ast AstParser AstProofs Eval EvalSpec EvalProofs Options CellParser PropCell Sheet SheetSpec SheetProofs SheetProofs2 ParsedPlain ModuleProofs ModuleProofs3 Loader LoaderSpec LoaderProofs LoaderProofs2 LoaderProofs3 PropLoader PropCache PropModules Targets PropTarget Files Cli PropFiles PropCli ProgramSpec ProgramProofs CompileSpec PropCompile PropVariables PropSheet PropLoader PropProgram SameSpec SameProofs CellAlike SourceSpec InlineSpec InlineProofs2 ModuleSpec ImportSpec HistorySpec PropHistory LibrarySpec.
From Verif Require HistoryProofs PropCrash PropInline PropSame PropResult RunExists PropImports.

Lemma merged ld meanings : forall req sc, NoDup req -> (forall i, In i req -> exists m s, passoc i ld = Some (with_scope m s) /\ passoc i meanings = Some s) ->
  merge_required req ld sc = merge_scopes meanings req sc.
Proof.
  intros req. revert ld. induction req as [|i req IH]; intros ld sc N H; [reflexivity|]. cbn [merge_required merge_scopes]. inversion N as [|? ? Ni Nr]; subst.
  destruct (H i (or_introl eq_refl)) as (m & s & -> & ->). cbn [m_scope with_scope]. change (m_scope (with_scope m s)) with s. apply IH; [exact Nr|].
  intros j I. destruct (H j (or_intror I)) as (m' & s' & A & B). exists m', s'. split; [|exact B]. rewrite HistoryProofs.premove_other; [exact A|]. intros ->. contradiction.
Qed.
Lemma meaning_plain E F : forall n p f sc, meaning n E F p f = Some sc -> plain_defs sc.
Proof.
  induction n as [|n IH]; intros p f sc M; [discriminate|]. cbn [meaning] in M. destruct (load_from_source E F p f) as [m| | |] eqn:Lm; try discriminate M.
  destruct (all_some _) as [scopes|] eqn:A; [|discriminate M]. destruct (merge_scopes scopes (rev (m_requires m)) (m_scope m)) as [s|] eqn:Ms; [|discriminate M].
  assert (P : plain_defs s).
  { eapply PropCrash.merge_scopes_plain; [|eapply PropCrash.source_plain, Lm|exact Ms]. clear Ms Lm. intros q d Pd. revert scopes A Pd. induction (m_requires m) as [|i req IHr]; intros scopes A Pd; cbn [map all_some] in A; [injection A as <-; discriminate Pd|].
    destruct (meaning n E F i (filename_relative_to i p)) as [si|] eqn:Mi; cbn [option_map] in A; [|discriminate A]. destruct (all_some (map _ req)) as [l|] eqn:Al; [|discriminate A]. injection A as <-.
    cbn [passoc] in Pd. destruct (path_eqb q i); [injection Pd as <-; eapply IH, Mi|eapply IHr; [reflexivity|exact Pd]]. }
  destruct (eval_scope E p s) as [s'| | |] eqn:Ev; try discriminate M. injection M as <-. exact (proj2 (PropCrash.scope_kept E p s P) _ Ev).
Qed.
Lemma merge_scopes_unique meanings : forall req sc sc', unique_keys sc -> merge_scopes meanings req sc = Some sc' -> unique_keys sc'.
Proof.
  induction req as [|i req IH]; intros sc sc' U M; cbn [merge_scopes] in M; [injection M as <-; exact U|]. destruct (passoc i meanings) as [d|]; [|discriminate M]. eapply IH; [|exact M]. unfold scope_merge. apply scope_merge_unique. exact U.
Qed.
(** of the meanings, only those of the imports matter *)
Lemma merge_scopes_ext m1 m2 : forall req sc, (forall i, In i req -> passoc i m1 = passoc i m2) -> merge_scopes m1 req sc = merge_scopes m2 req sc.
Proof.
  induction req as [|i req IH]; intros sc H; [reflexivity|]. cbn [merge_scopes]. rewrite (H i (or_introl eq_refl)). destruct (passoc i m2); [|reflexivity]. apply IH. intros; apply H; right; assumption.
Qed.
Lemma merge_scopes_plain_in m : forall req sc sc', plain_defs sc -> (forall i d, In i req -> passoc i m = Some d -> plain_defs d) -> merge_scopes m req sc = Some sc' -> plain_defs sc'.
Proof.
  induction req as [|i req IH]; intros sc sc' D H M; cbn [merge_scopes] in M; [injection M as <-; exact D|]. destruct (passoc i m) as [d|] eqn:P; [|discriminate M].
  eapply IH; [apply PropCrash.merge_plain; [exact D|exact (H i d (or_introl eq_refl) P)]|intros j e I; apply H; right; exact I|exact M].
Qed.
Lemma linked_plain E F p q : linked E F p q -> plain_defs (pr_scope p) -> plain_defs (pr_scope q).
Proof.
  intros (_ & _ & ms & Hm & M) D. eapply merge_scopes_plain_in; [exact D| |exact M]. intros i d I P. destruct (Hm i I) as (n & sc & Mn & P'). rewrite P in P'. injection P' as ->. eapply meaning_plain, Mn.
Qed.
Lemma linked_unique E F p q : linked E F p q -> unique_keys (pr_scope p) -> unique_keys (pr_scope q).
Proof. intros (_ & _ & ms & _ & M) U. eapply merge_scopes_unique; eassumption. Qed.

(** Compiling a program that uses a library evaluates the program with what it imports, whatever was compiled in the directory before. *)
Lemma library_run E0 F0 Lib F E uc kv name text t p q r G : library E0 F0 Lib -> history E0 F0 Lib F -> same_compiler E0 E -> in_the_past E F Lib -> uses_library E F Lib name ->
  (forall f, e_writable E f = true) -> sources F [name] = Some (text, t) -> no_object F [name] \/ older_object F [name] -> load_source (e_co E) text = Ok p ->
  linked E0 F0 p q -> compiles E uc kv name F (r, G) ->
  match main_eval (e_sheet E) (e_sched E) q kv with
  | Ok p' => exists m, r = Ok m /\ m_program m = p'
  | Err e => r = Err (MainEval e) | Panic => r = Panic | NoFuel => r = NoFuel
  end.
Proof.
  intros L H C Past U W So No Ld (Ls & Lr & ms & Hm & M) K. destruct (HistoryProofs.history_faithful E0 F0 Lib L F H) as [Ff Mf].
  destruct (HistoryProofs.compiles_spec E0 F0 Lib L _ _ _ _ _ _ _ C Ff Mf Past U K) as [_ [_ [[f [_ X]]|X]]]; [rewrite W in X; discriminate|].
  set (main := {| m_version := e_version E; m_path := [name]; m_program := p; m_file := [name]; m_dirty := false; m_needs_eval := true |}) in *.
  assert (Lm : load_from_cache_from_filename E F [name] [name] = Ok main) by (rewrite main_not_clean by exact No; unfold load_from_source; rewrite So, Ld; reflexivity).
  assert (Ls' : load_from_source E F [name] [name] = Ok main) by (unfold load_from_source; rewrite So, Ld; reflexivity).
  rewrite Lm in X. destruct X as (sc & (ld & A & B) & ->). destruct U as (_ & _ & U). destruct (U main Ls') as [Nd Im]. change (m_requires main) with (pr_required p) in *. change (m_scope main) with (pr_scope p) in *.
  assert (sc = pr_scope q) as ->.
  { rewrite (merged ld ms) in B; [congruence|exact Nd|]. intros i I. destruct (A i I) as (m0 & s & Gd & P). exists m0, s. split; [exact P|]. destruct (Hm i I) as (n & s' & Mn & P').
    destruct Gd as (f & n' & Lf & _ & Mf'). pose proof (Im i I) as Li. destruct L as (L1 & _). pose proof (L1 _ _ _ Lf Li) as ->. rewrite (HistoryProofs.meaning_unique E0 F0 _ _ _ _ _ _ Mf' Mn). exact P'. }
  unfold HistoryProofs.outcome_of, finish. cbn [m_needs_eval with_flags main]. cbn [m_program with_flags with_scope main with_program].
  match goal with |- context [fst (match main_eval _ _ ?x _ with _ => _ end)] => assert (Q : x = q) by (destruct q; cbn in *; congruence); rewrite Q; clear Q end.
  destruct (main_eval (e_sheet E) (e_sched E) q kv) as [p'|e| |]; cbn [fst]; eauto.
Qed.

(** ** C80 *)
(** For programs that use a library, with whatever object files are left from whatever history: what is written is what the program with
    the meanings of its imports means. *)
Theorem C80_library_meant_partial : forall E0 F0 Lib F E use_cache kvs args name text t p q bound1 bound2 r G,
  library E0 F0 Lib -> history E0 F0 Lib F -> same_compiler E0 E -> in_the_past E F Lib -> uses_library E F Lib name -> (forall f, e_writable E f = true) ->
  sources F [name] = Some (text, t) -> no_object F [name] \/ older_object F [name] -> load_source (e_co E) text = Ok p -> linked E0 F0 p q ->
  parse_key_values (co_oracle (e_co E)) kvs [] = Ok args -> (forall a, is_order (ev_order (e_sheet E) a)) -> bound1 + bound2 < ev_fuel (e_sheet E) ->
  good_fills (sheet_rows (pr_sheet p)) -> uncaptured_names q args -> no_circles q args bound1 -> flat_calls q args bound2 ->
  compiles E use_cache args name F (r, G) ->
  exists m, r = Ok m /\ output_rows q (meant q args) (sheet_texts (pr_sheet (m_program m))).
Proof.
  intros E0 F0 Lib F E uc kvs args name text t p q B1 B2 r G L H C Past U W So No Ld Lk Kv Or Fu Gf Nc Ci Fl K.
  pose proof (library_run _ _ _ _ _ _ _ _ _ _ _ _ _ _ L H C Past U W So No Ld Lk K) as X.
  destruct (load_plain _ _ _ Ld) as [Dp [Sp Fe]]. pose proof (load_source_unique _ _ _ Ld) as Uk. pose proof (linked_plain _ _ _ _ Lk Dp) as Dq. destruct (linked_unique _ _ _ _ Lk Uk) as [_ Uq].
  destruct Lk as (Ls & _). rewrite <- Ls in Sp, Fe, Gf.
  assert (Ua : NoDup (map fst args)) by (eapply key_values_unique; [|exact Kv]; constructor).
  assert (Da : forall x e, assoc x args = Some e -> plain e) by (eapply key_values_plain; [|exact Kv]; intros x e Q2; discriminate Q2).
  destruct (program_meant (e_sheet E) q args B1 B2 Dq Sp Uq Fe Ua Da Or Fu Gf Nc Ci Fl (e_sched E)) as (p' & Me & O). rewrite Me in X. destruct X as (m & -> & <-). eauto.
Qed.
Print Assumptions C80_library_meant_partial.
Theorem C80_library_written_partial : forall E0 F0 Lib F E use_cache kvs args name text t p q m G,
  library E0 F0 Lib -> history E0 F0 Lib F -> same_compiler E0 E -> in_the_past E F Lib -> uses_library E F Lib name -> (forall f, e_writable E f = true) ->
  sources F [name] = Some (text, t) -> no_object F [name] \/ older_object F [name] -> load_source (e_co E) text = Ok p -> linked E0 F0 p q ->
  parse_key_values (co_oracle (e_co E)) kvs [] = Ok args ->
  good_fills (sheet_rows (pr_sheet p)) -> uncaptured_names q args ->
  compiles E use_cache args name F (Ok m, G) ->
  output_rows q (written q args) (sheet_texts (pr_sheet (m_program m))).
Proof.
  intros E0 F0 Lib F E uc kvs args name text t p q m G L H C Past U W So No Ld Lk Kv Gf Nc K.
  pose proof (library_run _ _ _ _ _ _ _ _ _ _ _ _ _ _ L H C Past U W So No Ld Lk K) as X.
  destruct (load_plain _ _ _ Ld) as [Dp [Sp Fe]]. pose proof (load_source_unique _ _ _ Ld) as Uk. pose proof (linked_plain _ _ _ _ Lk Dp) as Dq. destruct (linked_unique _ _ _ _ Lk Uk) as [_ Uq].
  destruct Lk as (Ls & _). rewrite <- Ls in Sp, Fe, Gf.
  destruct (main_eval (e_sheet E) (e_sched E) q args) as [p'|e| |] eqn:Me; try discriminate X. destruct X as (m' & Em & <-). injection Em as <-.
  eapply eval_written; eauto.
  - eapply key_values_unique; [|exact Kv]. constructor.
  - eapply key_values_plain; [|exact Kv]. intros x e Q2. discriminate Q2.
Qed.
Print Assumptions C80_library_written_partial.

(** The whole way, from the command line to the new CSV file, for a program with a library after any history. *)
Theorem C80_library_command_line_partial : forall E0 F0 Lib w a out input S F text time args p q bound1 bound2,
  csv_output a out -> p_name (a_input a) = Some input -> (a_verbose a <= 4)%N -> a_backup a = false -> F out = None -> w_writable w out = true ->
  parse_key_values (oracle_of w) (a_key_values a) [] = Ok args ->
  let name := fst (stem_and_extension input) in
  library E0 F0 Lib -> history E0 F0 Lib S -> same_compiler E0 (w_env w) -> in_the_past (w_env w) S Lib -> uses_library (w_env w) S Lib name ->
  (forall f, e_writable (w_env w) f = true) -> (forall ad, is_order (ev_order (e_sheet (w_env w)) ad)) -> bound1 + bound2 < ev_fuel (e_sheet (w_env w)) ->
  sources S [name] = Some (text, time) -> no_object S [name] \/ older_object S [name] -> load_source (e_co (w_env w)) text = Ok p -> linked E0 F0 p q ->
  good_fills (sheet_rows (pr_sheet p)) -> uncaptured_names q args -> no_circles q args bound1 -> flat_calls q args bound2 ->
  (finite_files S -> exists res S' F', runs w a S F res S' F')
  /\ forall res S' F', runs w a S F res S' F' -> res = Exit0 /\ (forall f, f <> out -> F' f = F f)
     /\ exists contents, F' out = Some contents
        /\ forall i r k x c, nth_error (sheet_rows (pr_sheet q)) i = Some r -> k < copies (room (sheet_rows (pr_sheet q))) r -> nth_error (row_cells r) x = Some c ->
             exists t, at_ (csv_read contents) (first_row (sheet_rows (pr_sheet q)) i + k) x = Some t /\ meant q args (first_row (sheet_rows (pr_sheet q)) i + k) c t.
Proof.
  intros E0 F0 Lib w a out input S F text time args p q B1 B2 Ho Hi Hv Hb Fo Wo Kv name L H Cm Past U Wr Or Fu So No Ld Lk G Nc Ci Fl.
  split; [intro Fi; apply PropResult.C98_command_line, Fi|].
  assert (exists c, config_of (oracle_of w) a = Ok c) as [c Hc].
  { apply config_accepted. split; [|split; [exact Hv|right; congruence]]. apply (key_values_ok _ _ []). eauto. }
  destruct (config_fields _ _ _ Hc) as (Bk & _ & K & _ & _ & Uc). rewrite Kv in K. injection K as K.
  intros res S' F' R. destruct R as [e H1|H1|c' e H1 H2|c' o H1 H2 H3|c' o nm r S1 H1 H2 H3 C].
  + unfold oracle_of in Hc. congruence.
  + unfold oracle_of in Hc. congruence.
  + exfalso. rewrite (csv_chosen _ _ _ Ho) in H2. discriminate H2.
  + congruence.
  + unfold oracle_of in Hc. rewrite Hc in H1. injection H1 as <-. rewrite (csv_chosen _ _ _ Ho) in H2. injection H2 as <-. rewrite Hi in H3. injection H3 as <-. fold name in C. rewrite Uc, <- K in C.
    destruct (C80_library_meant_partial _ _ _ _ _ _ _ _ _ _ _ _ _ B1 B2 _ _ L H Cm Past U Wr So No Ld Lk Kv Or Fu G Nc Ci Fl C) as [m [Q Ou]]. subst r. rewrite deliver_csv, Bk, Hb. unfold main_program, write_csv. rewrite Fo, csv_write_fresh, Wo. cbn [fst snd as_ended]. split; [reflexivity|].
    split; [intros f Nq; unfold write_file; destruct (file_eqb_spec f out); [contradiction|reflexivity]|].
    set (texts := sheet_texts (pr_sheet (m_program m))) in *. exists (csv_text (padded texts)). split; [unfold write_file; destruct (file_eqb_spec out out); [reflexivity|congruence]|].
    intros i r k x c0 Hr Hk Hx. destruct Ou as [_ Ou]. destruct (Ou i r k Hr Hk) as [ts [Ht Fa]]. destruct (Forall2_nth_l _ _ _ _ _ Fa Hx) as [t [Hxt Mt]]. exists t. split; [|exact Mt].
    assert (W : 0 < width texts).
    { pose proof (width_le texts ts (nth_error_In _ _ Ht)). assert (x < length ts) by (apply nth_error_Some; congruence). lia. }
    rewrite C65_read_back.
    * unfold at_, padded. rewrite nth_error_map, Ht. cbn [option_map]. rewrite nth_error_app1 by (apply nth_error_Some; congruence). exact Hxt.
    * intros y Hy. unfold padded in Hy. apply in_map_iff in Hy as [z [<- Hz]]. destruct z as [|z0 z]; [|discriminate]. cbn [length app]. rewrite Nat.sub_0_r. destruct (width texts); [lia|discriminate].
Qed.
Print Assumptions C80_library_command_line_partial.

(** without the object files the same comes out *)
Lemma fresh_run E0 F0 Lib F E uc kv name r G : library E0 F0 Lib -> history E0 F0 Lib F -> same_compiler E0 E -> in_the_past E F Lib -> uses_library E F Lib name ->
  (forall f, e_writable E f = true) -> finite_files F -> no_object F [name] \/ older_object F [name] -> compiles E uc kv name F (r, G) ->
  exists G', compiles E false kv name (without_objects F) (r, G').
Proof.
  intros L H C Past U W [l Hl] No K. destruct (RunExists.compile_exists E (without_objects F) false kv name) as [[r' G'] K'].
  { exists l. intro f. destruct (Hl f) as [I|[A _]]; [left; exact I|right; split; [exact A|reflexivity]]. }
  rewrite (C79_library_history E0 F0 Lib F E uc false kv name r G r' G' L H C Past U W No K K'). eauto.
Qed.

(** The same against a specification that does not mention how modules are evaluated: the program and the modules it imports, directly or not,
    as their sources define them, read as one file (gathers, ImportSpec.v). Whatever was compiled before, the formulas that are written have
    the meaning that the one file gives them ... *)
Theorem C80_imports_history_written_partial : forall E0 F0 Lib F E use_cache kvs args name text t p whole m G,
  library E0 F0 Lib -> history E0 F0 Lib F -> same_compiler E0 E -> in_the_past E F Lib -> uses_library E F Lib name -> (forall f, e_writable E f = true) -> finite_files F ->
  sources F [name] = Some (text, t) -> no_object F [name] \/ older_object F [name] -> load_source (e_co E) text = Ok p ->
  parse_key_values (co_oracle (e_co E)) kvs [] = Ok args ->
  (forall main, load_from_source E F [name] [name] = Ok main ->
     gathers (load_one E F false) main whole /\ forall q r, reachable (load_one E F false) main q r -> filename_relative_to q r <> [name]) ->
  parameters_apart whole -> names_apart (in_one_file p whole) args ->
  good_fills (sheet_rows (pr_sheet p)) -> uncaptured_names (in_one_file p whole) args ->
  compiles E use_cache args name F (Ok m, G) ->
  output_rows (in_one_file p whole) (written (in_one_file p whole) args) (sheet_texts (pr_sheet (m_program m))).
Proof.
  intros E0 F0 Lib F E uc kvs args name text t p whole m G L H C Past U W Fi So No Ld Kv Ga Pa Na Gf Nc K.
  destruct (fresh_run _ _ _ _ _ _ args _ _ _ L H C Past U W Fi No K) as [G' K'].
  eapply (PropImports.C80_imports_written_partial E false kvs args name (without_objects F)); try eassumption; [left; exact I|discriminate].
Qed.
Print Assumptions C80_imports_history_written_partial.
(** ... and are that meaning, when the main module imports the modules with definitions itself. *)
Theorem C80_imports_history_meant_partial : forall E0 F0 Lib F E use_cache kvs args name text t p whole bound1 bound2 m G,
  library E0 F0 Lib -> history E0 F0 Lib F -> same_compiler E0 E -> in_the_past E F Lib -> uses_library E F Lib name -> (forall f, e_writable E f = true) -> finite_files F ->
  sources F [name] = Some (text, t) -> no_object F [name] \/ older_object F [name] -> load_source (e_co E) text = Ok p ->
  parse_key_values (co_oracle (e_co E)) kvs [] = Ok args -> (forall a, is_order (ev_order (e_sheet E) a)) -> bound1 + bound2 < ev_fuel (e_sheet E) ->
  (forall main, load_from_source E F [name] [name] = Ok main ->
     gathers (load_one E F false) main whole /\ seen_by_main (load_one E F false) main whole /\ unambiguous (load_one E F false) main
     /\ forall q r, reachable (load_one E F false) main q r -> filename_relative_to q r <> [name]) ->
  parameters_apart whole -> names_apart (in_one_file p whole) args ->
  good_fills (sheet_rows (pr_sheet p)) -> uncaptured_names (in_one_file p whole) args -> no_circles (in_one_file p whole) args bound1 -> flat_calls (in_one_file p whole) args bound2 ->
  compiles E use_cache args name F (Ok m, G) ->
  output_rows (in_one_file p whole) (meant (in_one_file p whole) args) (sheet_texts (pr_sheet (m_program m))).
Proof.
  intros E0 F0 Lib F E uc kvs args name text t p whole B1 B2 m G L H C Past U W Fi So No Ld Kv Or Fu Ga Pa Na Gf Nc Ci Fl K.
  destruct (fresh_run _ _ _ _ _ _ args _ _ _ L H C Past U W Fi No K) as [G' K'].
  eapply (PropImports.C80_imports_meant_partial E false kvs args name (without_objects F)); try eassumption; [left; exact I|discriminate].
Qed.
Print Assumptions C80_imports_history_meant_partial.

(** ** C81 *)
(** The sheet of a program with a library depends only on the sheet section and on the definitions, own or imported, that are looked at -
    whatever else the main file and the library define, and whatever was compiled before in either directory. *)
Theorem C81_library : forall E0 F0 Lib E0' F0' Lib' F F' E use_cache kvs kvs' args args' name text text' t t' p p' q q' r r' G G',
  library E0 F0 Lib -> history E0 F0 Lib F -> same_compiler E0 E -> in_the_past E F Lib -> uses_library E F Lib name ->
  library E0' F0' Lib' -> history E0' F0' Lib' F' -> same_compiler E0' E -> in_the_past E F' Lib' -> uses_library E F' Lib' name ->
  (forall f, e_writable E f = true) -> (forall a, is_order (ev_order (e_sheet E) a)) ->
  sources F [name] = Some (text, t) -> no_object F [name] \/ older_object F [name] -> load_source (e_co E) text = Ok p -> linked E0 F0 p q ->
  sources F' [name] = Some (text', t') -> no_object F' [name] \/ older_object F' [name] -> load_source (e_co E) text' = Ok p' -> linked E0' F0' p' q' ->
  parse_key_values (co_oracle (e_co E)) kvs [] = Ok args -> parse_key_values (co_oracle (e_co E)) kvs' [] = Ok args' ->
  csv_section (source_code_new text) = csv_section (source_code_new text') -> same_where_read q args q' args' ->
  compiles E use_cache args name F (r, G) -> compiles E use_cache args' name F' (r', G') ->
  same_result module_sheet r r'.
Proof.
  intros E0 F0 Lib E0' F0' Lib' F F' E uc kvs kvs' args args' name text text' t t' p p' q q' r r' G G' L H C P U L' H' C' P' U' W Or So No Ld Lk So' No' Ld' Lk' K K' Cs Sw R R'.
  pose proof (library_run _ _ _ _ _ _ _ _ _ _ _ _ _ _ L H C P U W So No Ld Lk R) as X.
  pose proof (library_run _ _ _ _ _ _ _ _ _ _ _ _ _ _ L' H' C' P' U' W So' No' Ld' Lk' R') as X'.
  pose proof (load_source_unique _ _ _ Ld) as Uk. pose proof (load_source_unique _ _ _ Ld') as Uk'.
  destruct (linked_unique _ _ _ _ Lk Uk) as [_ Uq]. destruct (linked_unique _ _ _ _ Lk' Uk') as [_ Uq'].
  assert (Ua : NoDup (map fst args)) by (eapply key_values_unique; [|exact K]; constructor).
  assert (Ua' : NoDup (map fst args')) by (eapply key_values_unique; [|exact K']; constructor).
  assert (Al : alike_sheet (pr_sheet q) (pr_sheet q')).
  { destruct Lk as (-> & _), Lk' as (-> & _).
    assert (Sp : forall t0 q0, load_source (e_co E) t0 = Ok q0 -> sheet_parse (e_co E) (source_code_new t0) = Ok (pr_sheet q0)).
    { intros t0 q0 Hq. unfold load_source in Hq. cbv zeta in Hq. match type of Hq with bind ?a _ = _ => destruct a as [[? ?]| | |] end; try discriminate Hq. cbn [bind] in Hq.
      destruct (sheet_parse _ _); try discriminate Hq. cbn [bind] in Hq. injection Hq as <-. reflexivity. }
    destruct (sheet_parse_alike _ _ _ _ Cs (Sp _ _ Ld)) as [s' [H1 H2]]. rewrite (Sp _ _ Ld') in H1. injection H1 as <-. exact H2. }
  pose proof (same_programs (e_sheet E) (e_sched E) q q' args args' Or Uq Ua Uq' Ua' Al Sw) as Sr. unfold same_result in *.
  destruct (main_eval (e_sheet E) (e_sched E) q args) as [v|e| |], (main_eval (e_sheet E) (e_sched E) q' args') as [v'|e'| |]; try contradiction Sr.
  - destruct X as (m & -> & <-), X' as (m' & -> & <-). exact Sr.
  - subst. reflexivity.
  - subst. exact I.
  - subst. exact I.
Qed.
Print Assumptions C81_library.

(** ** C91 *)
(** Writing out what names and calls are short for, also of imported definitions, in a program with a library. The files may use different
    libraries: one with the imports, and one where everything was written out and nothing is imported, say. *)
Theorem C91_library_partial : forall E0 F0 Lib E0' F0' Lib' F F' E use_cache kvs args name text text' t t' p p' q q' bound1 bound2 r r' G G',
  library E0 F0 Lib -> history E0 F0 Lib F -> same_compiler E0 E -> in_the_past E F Lib -> uses_library E F Lib name ->
  library E0' F0' Lib' -> history E0' F0' Lib' F' -> same_compiler E0' E -> in_the_past E F' Lib' -> uses_library E F' Lib' name ->
  (forall f, e_writable E f = true) -> (forall a, is_order (ev_order (e_sheet E) a)) -> bound1 + bound2 < ev_fuel (e_sheet E) ->
  sources F [name] = Some (text, t) -> no_object F [name] \/ older_object F [name] -> load_source (e_co E) text = Ok p -> linked E0 F0 p q ->
  sources F' [name] = Some (text', t') -> no_object F' [name] \/ older_object F' [name] -> load_source (e_co E) text' = Ok p' -> linked E0' F0' p' q' ->
  parse_key_values (co_oracle (e_co E)) kvs [] = Ok args ->
  good_fills (sheet_rows (pr_sheet q)) -> uncaptured_names q args -> no_circles q args bound1 -> flat_calls q args bound2 -> inlined q q' ->
  compiles E use_cache args name F (r, G) -> compiles E use_cache args name F' (r', G') ->
  exists m m', r = Ok m /\ r' = Ok m' /\ sheet_texts (module_sheet m') = sheet_texts (module_sheet m).
Proof.
  intros E0 F0 Lib E0' F0' Lib' F F' E uc kvs args name text text' t t' p p' q q' b1 b2 r r' G G' L H C P U L' H' C' P' U' W Or Fu So No Ld Lk So' No' Ld' Lk' K Gf Nc Ci Fl I R R'.
  assert (Gf' : good_fills (sheet_rows (pr_sheet p))) by (destruct Lk as (<- & _); exact Gf).
  pose proof (in_good_fills q q' I Gf) as Gq. assert (Gp : good_fills (sheet_rows (pr_sheet p'))) by (destruct Lk' as (<- & _); exact Gq).
  destruct (C80_library_meant_partial _ _ _ _ _ _ _ _ _ _ _ _ _ b1 b2 _ _ L H C P U W So No Ld Lk K Or Fu Gf' Nc Ci Fl R) as (m & -> & O).
  destruct (C80_library_meant_partial _ _ _ _ _ _ _ _ _ _ _ _ _ b1 b2 _ _ L' H' C' P' U' W So' No' Ld' Lk' K Or Fu Gp (in_uncaptured q q' args I Nc) (in_no_circles q q' args I b1 b2 Ci Fl) (in_flat_calls q q' args I b2 Fl) R') as (m' & -> & O').
  exists m, m'. split; [reflexivity|]. split; [reflexivity|].
  destruct (load_plain _ _ _ Ld) as [Dp _]. pose proof (linked_plain _ _ _ _ Lk Dp) as Dq.
  exact (PropInline.rows_same q q' args _ _ Dq I O O').
Qed.
Print Assumptions C91_library_partial.

(** ** The conditions are met *)
Definition ex_lib_text : string := "use lib" ++ nl ++ "---" ++ nl ++ "=fee".
Definition ex_lib_p : program := Eval vm_compute in ex_program (lit ex_lib_text).
Definition ex_lib_scope : scope := Eval vm_compute in match merge_scopes [([lit "lib"], ex_meaning [lit "lib"])] [[lit "lib"]] (pr_scope ex_lib_p) with Some sc => sc | None => empty_scope end.
Definition ex_lib_q : program := {| pr_scope := ex_lib_scope; pr_sheet := pr_sheet ex_lib_p; pr_required := pr_required ex_lib_p |}.
(** without the library: its definitions, and the cell written out *)
Definition ex_own_text : string := "price := 100" ++ nl ++ "fee := 100 * 2" ++ nl ++ "---" ++ nl ++ "=100 * 2".
Definition ex_own_files : fs := ex_files [(["main"%string], ex_own_text, 1)].
Definition ex_own_p : program := Eval vm_compute in ex_program (lit ex_own_text).
Definition ex_none (p : module_path) (f : file) : Prop := False.
Lemma ex_linked : linked (ex_E 5) ex_split ex_lib_p ex_lib_q.
Proof.
  split; [reflexivity|]. split; [reflexivity|]. exists [([lit "lib"], ex_meaning [lit "lib"])]. split; [|vm_compute; reflexivity].
  intros i [<-|[]]. exists 3, (ex_meaning [lit "lib"]). split; vm_compute; reflexivity.
Qed.
Lemma ex_own_linked : linked (ex_E 5) ex_own_files ex_own_p ex_own_p.
Proof. split; [reflexivity|]. split; [reflexivity|]. exists []. split; [intros i []|vm_compute; reflexivity]. Qed.
Lemma ex_lib_values here x v : value_of ex_lib_q [] here x v -> ref_names v = [] /\ call_names v = [].
Proof.
  intros [nm e H|t f text Hn Hl Hr|e Hn Hb Ha].
  - apply assoc_In in H. vm_compute in H. destruct H as [H|[H|[]]]; inversion H; subst; split; reflexivity.
  - destruct Hl as [Hb _]. apply events_binds in Hb. vm_compute in Hb. destruct Hb.
  - discriminate Ha.
Qed.
Lemma ex_lib_functions f : assoc f (functions (pr_scope ex_lib_q)) = None.
Proof. reflexivity. Qed.
Lemma ex_lib_conditions : good_fills (sheet_rows (pr_sheet ex_lib_p)) /\ uncaptured_names ex_lib_q [] /\ no_circles ex_lib_q [] 1 /\ flat_calls ex_lib_q [] 1.
Proof.
  split; [|split; [|split]].
  - intros [|[|i]] r Hr Hf; try discriminate Hr; vm_compute in Hr; injection Hr as <-; exfalso; apply Hf; reflexivity.
  - split; [|split]; try (intros; intros [f' [ps' [body' [nm' [H' _]]]]]; discriminate H').
  - exists (fun _ => 0). split; [intro; lia|]. intros here x v y w W Hy _. rewrite (proj1 (ex_lib_values _ _ _ W)) in Hy. destruct Hy.
  - split; [|split; [|split]].
    + intros r c n Hr Hc Ha. vm_compute in Hr. destruct Hr as [<-|[]]. vm_compute in Hc. destruct Hc as [<-|[]]. vm_compute in Ha. injection Ha as <-. exact I.
    + intros here x v W f Hf. rewrite (proj2 (ex_lib_values _ _ _ W)) in Hf. destruct Hf.
    + intros f ps body nm H. discriminate H.
    + exists (fun _ => 0). split; [intro; lia|]. intros f ps body nm g H. discriminate H.
Qed.
Lemma ex_lib_inlined : inlined ex_lib_q ex_own_p.
Proof.
  split; [|split].
  - constructor; [|constructor]. split; [reflexivity|]. split; [reflexivity|]. split; [reflexivity|]. constructor; [|constructor].
    split; [reflexivity|]. split; [reflexivity|]. cbn [cell_ast]. eapply wo_name; [reflexivity|intros []|intros y []|apply wo_same].
  - intro x. unfold ex_lib_q, ex_lib_scope, ex_own_p. cbn [variables pr_scope assoc].
    repeat (match goal with |- context [str_eqb x ?s] => destruct (str_eqb_spec x s) as [->|] end; [vm_compute; apply wo_same|]). 
    repeat (match goal with |- context [str_eqb x ?s] => destruct (str_eqb_spec x s) as [->|] end; [congruence|]). exact I.
  - intro f. exact I.
Qed.
Lemma ex_own_library : library (ex_E 5) ex_own_files ex_none.
Proof. split; [intros p f f' []|]. split; [intros p p' f []|intros p f []]. Qed.
Lemma ex_own_uses : uses_library (ex_E 7) ex_own_files ex_none (lit "main").
Proof.
  split; [intros f []|]. split; [intros p []|]. intros m Lm.
  assert (R : match load_from_source (ex_E 7) ex_own_files [lit "main"] [lit "main"] with Ok m => m_requires m | _ => [] end = []) by (vm_compute; reflexivity).
  rewrite Lm in R. rewrite R. split; [constructor|intros q []].
Qed.
(** [ex_touched]: a directory with object files of the library, left by compiling another main file; the library is not compiled again *)
Lemma ex_own_run : exists m G, compiles (ex_E 7) true [] (lit "main") ex_own_files (Ok m, G).
Proof.
  set (run := ex_run (ex_E 7) true [] "main" ex_own_files false [["main"]]%string).
  exists (ex_module run), (files_after run ex_own_files). unfold run. apply exec_compile_sound with (n := 100) (last := false) (order := [[lit "main"]]). vm_compute. reflexivity.
Qed.
Example library_nonvacuous : exists m m' G G',
  compiles (ex_E 7) true [] (lit "main") ex_touched (Ok m, G) /\ compiles (ex_E 7) true [] (lit "main") ex_own_files (Ok m', G')
  /\ (forall f, In f [[lit "lib"]; [lit "base"]] -> ~ no_object ex_touched f)
  /\ (exists rows, output_rows ex_lib_q (meant ex_lib_q []) rows /\ output_rows ex_lib_q (written ex_lib_q []) rows)
  /\ sheet_texts (module_sheet m') = sheet_texts (module_sheet m) /\ sheet_texts (module_sheet m) = [[lit "=(100 * 2)"]].
Proof.
  destruct C79_nonvacuous as (L & H & C & P & U & No & Ob & (G & Y) & _). destruct Y as ([[m|e| |] G1] & R & T & _); cbn [fst texts] in T; try discriminate T. cbn [fst snd] in *. injection T as T.
  destruct ex_own_run as (m' & G' & R').
  destruct ex_lib_conditions as (Gf & Nc & Ci & Fl).
  assert (Ld : load_source (e_co (ex_E 7)) (lit ex_lib_text) = Ok ex_lib_p) by (vm_compute; reflexivity).
  assert (Ld' : load_source (e_co (ex_E 7)) (lit ex_own_text) = Ok ex_own_p) by (vm_compute; reflexivity).
  assert (Kv : parse_key_values (co_oracle (e_co (ex_E 7))) [] [] = Ok []) by reflexivity.
  assert (Or : forall a, is_order (ev_order (e_sheet (ex_E 7)) a)) by (intros ad k l; apply Permutation.Permutation_refl).
  assert (Fu : 1 + 1 < ev_fuel (e_sheet (ex_E 7))) by (cbn; lia).
  assert (So : sources ex_touched [lit "main"] = Some (lit ex_lib_text, 6)) by (vm_compute; reflexivity).
  assert (So' : sources ex_own_files [lit "main"] = Some (lit ex_own_text, 1)) by (vm_compute; reflexivity).
  assert (No' : no_object ex_own_files [lit "main"]) by exact I.
  assert (W : forall f, e_writable (ex_E 7) f = true) by reflexivity.
  exists m, m', G1, G'. split; [exact R|]. split; [exact R'|]. split; [exact Ob|].
  destruct (C80_library_meant_partial _ _ _ _ _ _ _ _ _ (lit ex_lib_text) 6 _ _ 1 1 _ _ L H C P U W So (or_intror No) Ld ex_linked Kv Or Fu Gf Nc Ci Fl R) as (m1 & Q & O1). injection Q as <-.
  pose proof (C80_library_written_partial _ _ _ _ _ _ _ _ _ (lit ex_lib_text) 6 _ _ _ _ L H C P U W So (or_intror No) Ld ex_linked Kv Gf Nc R) as O2.
  split; [exists (sheet_texts (pr_sheet (m_program m))); split; assumption|].
  destruct (C91_library_partial _ _ _ (ex_E 5) ex_own_files ex_none _ ex_own_files _ _ _ _ _ (lit ex_lib_text) (lit ex_own_text) 6 1 _ _ _ _ 1 1 _ _ _ _ L H C P U ex_own_library (h_start (ex_E 5) ex_own_files ex_none (fun _ => eq_refl)) (conj eq_refl (conj eq_refl (conj eq_refl (conj eq_refl eq_refl)))) ltac:(intros p f text t []) ex_own_uses
    W Or Fu So (or_intror No) Ld ex_linked So' (or_introl No') Ld' ex_own_linked Kv Gf Nc Ci Fl ex_lib_inlined R R') as (m2 & m3 & Q2 & Q3 & Q4).
  injection Q2 as <-. injection Q3 as <-. split; [exact Q4|].
  exact T.
Qed.
(** C81: with the library, or with other definitions of the same names, and one more, in the main file *)
Definition ex_same_text : string := "price := 100" ++ nl ++ "extra := fee + 1" ++ nl ++ "fee := 100 * 2" ++ nl ++ "---" ++ nl ++ "=fee".
Definition ex_same_p : program := Eval vm_compute in ex_program (lit ex_same_text).
Example C81_library_nonvacuous : load_source ex_co (lit ex_same_text) = Ok ex_same_p /\ same_where_read ex_lib_q [] ex_same_p [] /\ pr_scope ex_same_p <> pr_scope ex_lib_q
  /\ csv_section (source_code_new (lit ex_lib_text)) = csv_section (source_code_new (lit ex_same_text)) /\ linked (ex_E 5) (ex_files [(["main"%string], ex_same_text, 1)]) ex_same_p ex_same_p.
Proof.
  split; [vm_compute; reflexivity|]. split.
  - assert (Rd : forall x, reads_name ex_lib_q [] x -> x = lit "fee" ).
    { intros x [(n & [(r & c & Hr & Hc & Ha)|[(y & Hy)|(y & Hy)]] & Hx)|(f & g & Hf & _)]; [| | |discriminate Hf].
      - vm_compute in Hr. destruct Hr as [<-|[]]. vm_compute in Hc. destruct Hc as [<-|[]]. vm_compute in Ha. injection Ha as <-. destruct Hx as [<-|[]]. reflexivity.
      - apply assoc_In in Hy. vm_compute in Hy. destruct Hy as [Hy|[Hy|[]]]; inversion Hy; subst; vm_compute in Hx; destruct Hx.
      - discriminate Hy. }
    split; [|intros; reflexivity]. intros x Hx. split; [|reflexivity].
    assert (Ne : x <> lit "extra").
    { intros ->. destruct Hx as [Hx|Pl]; [apply Rd in Hx; discriminate Hx|].
      revert Pl. eapply PropSame.not_place; [vm_compute; reflexivity|reflexivity]. }
    unfold ex_same_p, ex_lib_q, ex_lib_scope. cbn [variables pr_scope assoc].
    repeat (match goal with |- context [str_eqb x ?s] => destruct (str_eqb_spec x s) as [->|] end; [vm_compute; reflexivity || (exfalso; apply Ne; vm_compute; reflexivity)|]). reflexivity.
  - split; [discriminate|]. split; [vm_compute; reflexivity|]. split; [reflexivity|]. split; [reflexivity|]. exists []. split; [intros i []|vm_compute; reflexivity].
Qed.
(** the conditions of C80_imports_history_written_partial, in the same directory: all definitions in one scope *)
Definition ex_here_load := load_one (ex_E 7) ex_touched false.
Definition ex_here_main : module := match load_from_source (ex_E 7) ex_touched [lit "main"] [lit "main"] with Ok m => m | _ => PropLoader.ex_main ex_split end.
Definition ex_here_lib : module := match ex_here_load [lit "lib"] [lit "main"] with Ok m => m | _ => ex_here_main end.
Definition ex_here_base : module := match ex_here_load [lit "base"] [lit "lib"] with Ok m => m | _ => ex_here_main end.
Definition ex_here_whole : scope := Eval vm_compute in
  {| functions := []; variables := variables (m_scope ex_here_lib) ++ variables (m_scope ex_here_base); exports := [] |}.
Lemma here_lib_loaded : ex_here_load [lit "lib"] (m_path ex_here_main) = Ok ex_here_lib. Proof. vm_compute. reflexivity. Qed.
Lemma here_base_loaded : ex_here_load [lit "base"] (m_path ex_here_lib) = Ok ex_here_base. Proof. vm_compute. reflexivity. Qed.
Lemma here_reached p r : reachable ex_here_load ex_here_main p r -> In (p, r) [([lit "lib"], m_path ex_here_main); ([lit "base"], m_path ex_here_lib)].
Proof.
  apply reached.
  - vm_compute. intuition congruence.
  - intros p0 r0 m q [I|[I|[]]] L Q; apply pair_equal_spec in I as [<- <-].
    + rewrite here_lib_loaded in L. assert (m = ex_here_lib) as -> by congruence. revert Q. vm_compute. intuition congruence.
    + rewrite here_base_loaded in L. assert (m = ex_here_base) as -> by congruence. revert Q. vm_compute. intuition congruence.
Qed.
Lemma here_parts m : takes_part ex_here_load ex_here_main m <-> m = ex_here_main \/ m = ex_here_lib \/ m = ex_here_base.
Proof.
  assert (R1 : reachable ex_here_load ex_here_main [lit "lib"] (m_path ex_here_main)) by (apply r_main; vm_compute; auto).
  split.
  - intros [->|[q [r [H L]]]]; [auto|]. apply here_reached in H as [H|[H|[]]]; apply pair_equal_spec in H as [<- <-].
    + rewrite here_lib_loaded in L. right. left. congruence.
    + rewrite here_base_loaded in L. right. right. congruence.
  - intros [->|[->| ->]]; [left; reflexivity| |]; right.
    + exists [lit "lib"], (m_path ex_here_main). split; [exact R1|apply here_lib_loaded].
    + exists [lit "base"], (m_path ex_here_lib). split; [|apply here_base_loaded]. eapply r_import; [exact R1|apply here_lib_loaded|vm_compute; auto].
Qed.
Lemma here_gathers : gathers ex_here_load ex_here_main ex_here_whole.
Proof.
  assert (P : forall m, takes_part ex_here_load ex_here_main m -> part_of (m_scope m) ex_here_whole) by (intros m H; apply here_parts in H as [->|[->| ->]]; apply part_check; vm_compute; repeat constructor).
  split; [vm_compute; repeat constructor; cbn [In]; intuition discriminate|]. split; intros x g; (split; [|intros (m & H & A); apply (P m H); exact A]); revert x g.
  - apply (assoc_cases (fun x g => exists m, takes_part ex_here_load ex_here_main m /\ assoc x (variables (m_scope m)) = Some g)).
    repeat constructor; ((exists ex_here_lib; split; [apply here_parts; auto|vm_compute; reflexivity]) || (exists ex_here_base; split; [apply here_parts; auto|vm_compute; reflexivity])).
  - intros x g Q. discriminate Q.
Qed.
Lemma ex_touched_finite : finite_files ex_touched.
Proof.
  apply (RunExists.finite_source ex_used). unfold ex_used. assert (Fi : finite_files ex_split) by apply ex_files_finite.
  eapply RunExists.compiles_finite; [exact Fi|]. apply ex_compiles. vm_compute. reflexivity.
Qed.
Example C80_imports_history_nonvacuous :
  (forall main, load_from_source (ex_E 7) ex_touched [lit "main"] [lit "main"] = Ok main ->
     gathers ex_here_load main ex_here_whole /\ forall q r, reachable ex_here_load main q r -> filename_relative_to q r <> [lit "main"])
  /\ parameters_apart ex_here_whole /\ names_apart (in_one_file ex_lib_p ex_here_whole) [] /\ uncaptured_names (in_one_file ex_lib_p ex_here_whole) [] /\ finite_files ex_touched.
Proof.
  assert (Np : forall x, ~ parameter ex_here_whole x) by (intros x (f & ps & b & nm & H & _); discriminate H).
  split; [|split; [|split; [|split]]].
  - intros main Lm. assert (X : ex_here_main = main) by (unfold ex_here_main; rewrite Lm; reflexivity). subst main. split; [exact here_gathers|].
    intros q r H. apply here_reached in H as [H|[H|[]]]; apply pair_equal_spec in H as [<- <-]; vm_compute; discriminate.
  - split; [intros p H; destruct (Np _ H)|]. split; [intros; apply Np|intros f ps b nm y H; discriminate H].
  - split; [|intros x []]. intros x t f H. apply events_binds in H. vm_compute in H. destruct H.
  - split; [|split]; try (intros; intros [f' [ps' [body' [nm' [H' _]]]]]; discriminate H').
  - exact ex_touched_finite.
Qed.
