(** * PropCache: object files (C32, C33, C53-C58). *)
From Verif Require Import Base BaseProofs Csvp SourceCode Ast AstParser Eval Options CellParser PropCell Sheet PropSheet PropVariables
  Loader LoaderSpec LoaderProofs LoaderProofs2 LoaderProofs3 PropLoader.

Lemma main_not_clean E F name : no_object F [name] \/ older_object F [name] -> load_from_cache_from_filename E F [name] [name] = load_from_source E F [name] [name].
Proof.
  unfold load_from_cache_from_filename, load_from_object, no_object, older_object. destruct (objects F [name]) as [[[m|] t]|] eqn:O; try reflexivity.
  intros [[]|[Hf [text [t' [S L]]]]]. unfold check_if_is_dirty. rewrite Hf, O, S. destruct (Nat.ltb_spec t t'); [reflexivity|lia].
Qed.
Lemma from_source_same E F F' p f : sources F f = sources F' f -> load_from_source E F p f = load_from_source E F' p f.
Proof. intro H. unfold load_from_source. rewrite H. reflexivity. Qed.
Lemma from_source_shape E F p f m : load_from_source E F p f = Ok m -> m_file m = f /\ m_path m = p /\ m_needs_eval m = true /\ m_dirty m = false /\ m_version m = e_version E.
Proof. unfold load_from_source. destruct (sources F f) as [[text t]|]; [|discriminate]. destruct (load_source (e_co E) text); try discriminate. intros [= <-]. auto. Qed.

(** *** runs that agree on what is reachable *)
Section Agree.
  Variables (l1 l2 : module_path -> module_path -> outcome load_failure module) (main : module).
  Hypothesis same : forall p r, reachable l1 main p r -> l1 p r = l2 p r.
  Lemma step_agree sh t sh' t' : sourced l1 main t -> step l1 (sh, t) (sh', t') -> step l2 (sh, t) (sh', t').
  Proof.
    intros So H. remember (sh, t) as c eqn:Ec. remember (sh', t') as c' eqn:Ec'. revert sh t sh' t' So Ec Ec'.
    induction H as [sh p r|sh p e|sh slot m new|sh sh1 slot m a k k' b H IH|sh slot m kids Fk P|sh slot m kids Fk P];
      intros sh0 t0 sh0' t0' So E1 E2; inversion E1; inversion E2; subst; clear E1 E2; try (constructor; assumption).
    - inversion So; subst. rewrite same by assumption. apply s_read.
    - inversion So as [| |? ? ? ? Fa| | | |]; subst. rewrite Forall_forall in Fa. apply s_kid. eapply IH; [apply Fa, in_elt|reflexivity|reflexivity].
  Qed.
  Lemma run_agree sh t : load_run l1 main sh t -> load_run l2 main sh t.
  Proof.
    intros [H Fi]. split; [|exact Fi]. clear Fi.
    assert (X : forall c c', steps l1 c c' -> (sourced l1 main (snd c) /\ maps_sourced l1 main (fst c)) -> steps l2 c c').
    { intros c c' R. induction R as [c|[sh0 t0] [sh1 t1] c'' H1 R IH]; intro I; [apply st_refl|]. cbn [fst snd] in *. destruct I as [I1 I2].
      eapply st_step; [eapply step_agree; eauto|]. apply IH. cbn [fst snd]. eapply sourced_step; eauto. }
    apply X; [exact H|]. cbn [fst snd]. split; [constructor; reflexivity|]. split; intros ? ? [].
  Qed.
End Agree.

(** ** C32 *)
(** Main without object file or with one older than its source, other modules without object file: whatever is compiled
    is what the present sources give. Missing: modules with object files, for which it is false (below). *)
Theorem C32_current_sources_partial : forall E use_cache kv name F r,
  no_object F [name] \/ older_object F [name] ->
  (forall f, f <> [name] -> no_object F f) ->
  (forall main p q, load_from_source E F [name] [name] = Ok main -> reachable (load_one E F use_cache) main p q -> filename_relative_to p q <> [name]) ->
  compiles E use_cache kv name F r ->
  exists r', compiles E use_cache kv name (without_objects F) r' /\ fst r' = fst r.
Proof.
  intros E uc kv name F r Hm Hd Hn H.
  assert (M : load_from_cache_from_filename E F [name] [name] = load_from_cache_from_filename E (without_objects F) [name] [name]).
  { rewrite !main_not_clean by (try assumption; left; exact I). apply from_source_same. reflexivity. }
  destruct H as [main sh t order Lm R O|e Lm|Lm].
  - eexists. split; [eapply c_run; [rewrite <- M; exact Lm| |exact O]|apply compile_with_fs].
    rewrite main_not_clean in Lm by assumption. eapply run_agree; [|exact R]. intros p q Hr. unfold load_one, load_from_cache. destruct uc; [|apply from_source_same; reflexivity].
    specialize (Hd _ (Hn main p q Lm Hr)). unfold load_from_object. cbn [objects without_objects]. unfold no_object in Hd. destruct (objects F _) as [[[m|] tm]|]; [destruct Hd|apply from_source_same; reflexivity..].
  - eexists. split; [apply c_main_failed; rewrite <- M; exact Lm|reflexivity].
  - eexists. split; [apply c_main_panics; rewrite <- M; exact Lm|reflexivity].
Qed.
Print Assumptions C32_current_sources_partial.
Definition ex_two : fs := ex_files [(["main"], "use lib" ++ nl ++ "---" ++ nl ++ "=x", 1); (["lib"], "x := 1" ++ nl ++ "---" ++ nl, 1)]%string.
Definition order2 : list (list string) := [["lib"]; ["main"]]%string.
Definition ex_two_compiled : fs := files_after (ex_run (ex_E 5) true [] "main" ex_two false order2) ex_two.
Lemma ex_two_yields : yields (ex_E 5) true [] "main" ex_two (Ok [[lit "=1"]]) ex_two_compiled.
Proof. apply ex_run_yields. vm_compute. reflexivity. Qed.
(** main changed after it was compiled, the object of lib removed *)
Definition ex_main_edited : fs :=
  {| sources := sources (edited ex_two_compiled ["main"] ("use lib" ++ nl ++ "---" ++ nl ++ "=x+x") 6)%string;
     objects := fun f => if path_eqb f [lit "main"] then objects ex_two_compiled f else None |}.
Example C32_nonvacuous : older_object ex_main_edited [lit "main"] /\ (forall f, f <> [lit "main"] -> no_object ex_main_edited f)
  /\ (exists F', yields (ex_E 7) true [] "main" ex_main_edited (Ok [[lit "=(1 + 1)"]]) F').
Proof.
  split; [|split].
  - vm_compute. split; [reflexivity|]. do 2 eexists. split; [reflexivity|]. apply Nat.leb_le. reflexivity.
  - intros f Hf. unfold no_object. cbn [objects ex_main_edited]. destruct (path_eqb_spec f [lit "main"]) as [->|Hl]; [contradiction|exact I].
  - eexists. apply (ex_run_yields _ _ _ _ _ false order2). vm_compute. reflexivity.
Qed.

(** C32 refuted (1): main compiled and unchanged, then lib is edited: the old value is written again. *)
Theorem C32_clean_main_refuted : let F := edited ex_two_compiled ["lib"]%string ("x := 2" ++ nl ++ "---" ++ nl)%string 6 in
  (exists F', yields (ex_E 7) true [] "main" F (Ok [[lit "=1"]]) F')
  /\ (exists F', yields (ex_E 7) true [] "main" (without_objects F) (Ok [[lit "=2"]]) F').
Proof. split; eexists; apply (ex_run_yields _ _ _ _ _ false order2); vm_compute; reflexivity. Qed.
Print Assumptions C32_clean_main_refuted.
(** (2): main and lib are both edited: the new main with the old lib; and now the object of lib is rewritten from the old
    one, so that the edit is never noticed any more, even when main is edited again. *)
Definition ex_both_edited : fs := edited (edited ex_two_compiled ["lib"]%string ("x := 2" ++ nl ++ "---" ++ nl)%string 6) ["main"]%string ("use lib" ++ nl ++ "---" ++ nl ++ "=x+x")%string 6.
Definition ex_both_compiled : fs := files_after (ex_run (ex_E 7) true [] "main" ex_both_edited false order2) ex_both_edited.
Definition ex_both_again : fs := edited ex_both_compiled ["main"]%string ("use lib" ++ nl ++ "---" ++ nl ++ "=x*x")%string 8.
Theorem C32_direct_dependency_refuted :
  yields (ex_E 7) true [] "main" ex_both_edited (Ok [[lit "=(1 + 1)"]]) ex_both_compiled
  /\ (exists F', yields (ex_E 7) true [] "main" (without_objects ex_both_edited) (Ok [[lit "=(2 + 2)"]]) F')
  /\ (exists F', yields (ex_E 9) true [] "main" ex_both_again (Ok [[lit "=(1 * 1)"]]) F')
  /\ match objects ex_both_again [lit "lib"], sources ex_both_again [lit "lib"] with Some (_, t), Some (_, t') => t' < t | _, _ => False end.
Proof.
  split; [|split; [|split]].
  - apply (ex_run_yields _ _ _ _ _ false order2); vm_compute; reflexivity.
  - eexists; apply (ex_run_yields _ _ _ _ _ false order2); vm_compute; reflexivity.
  - eexists; apply (ex_run_yields _ _ _ _ _ false order2); vm_compute; reflexivity.
  - vm_compute. lia.
Qed.
Print Assumptions C32_direct_dependency_refuted.
(** (3): an edit of an indirect dependency: the compiler waits for itself and never returns. *)
Definition ex_three : fs := ex_files [(["main"], "use mid" ++ nl ++ "---" ++ nl ++ "=y", 1); (["mid"], "use lib" ++ nl ++ "y := x" ++ nl ++ "---" ++ nl, 1); (["lib"], "x := 1" ++ nl ++ "---" ++ nl, 1)]%string.
Definition order3 : list (list string) := [["lib"]; ["mid"]; ["main"]]%string.
Definition ex_three_compiled : fs := files_after (ex_run (ex_E 5) true [] "main" ex_three false order3) ex_three.
Theorem C32_indirect_dependency_refuted :
  yields (ex_E 5) true [] "main" ex_three (Ok [[lit "=1"]]) ex_three_compiled
  /\ (exists F', yields (ex_E 7) true [] "main" (edited ex_three_compiled ["lib"]%string ("x := 2" ++ nl ++ "---" ++ nl)%string 6) NoFuel F').
Proof. split; [|eexists]; apply (ex_run_yields _ _ _ _ _ false order3); vm_compute; reflexivity. Qed.
Print Assumptions C32_indirect_dependency_refuted.

(** C32 refuted in general (3): whenever a module that other dependencies import has been edited since it was compiled, the
    compilation never ends. *)
Theorem C32_indirect_edit_refuted : forall E kv name F main sh t order p,
  load_from_cache_from_filename E F [name] [name] = Ok main -> load_run (load_one E F true) main sh t -> panicked t = false ->
  In p (map fst (loaded sh)) -> p <> m_path main ->
  (forall r, reachable (load_one E F true) main p r -> older_object F (filename_relative_to p r)) ->
  imported_indirectly main (loaded sh) p ->
  compile_with E true kv main sh t order F = (NoFuel, F).
Proof.
  intros E kv name F main sh t order p Lm R Pt Hp Hpm Ho Hi. unfold compile_with. rewrite Pt. unfold load_main.
  assert (Pa : exists m, passoc p (loaded sh) = Some m).
  { pose proof (proj1 (passoc_keys p (loaded sh)) Hp). destruct (passoc p (loaded sh)); [eauto|congruence]. }
  destruct Pa as [m Pa].
  assert (D : m_dirty m = true).
  { destruct R as [R _]. destruct (sourced_run _ _ _ _ R) as [_ [Sl _]]. destruct (Sl _ _ (passoc_In _ _ _ Pa)) as [r [Hr El]].
    specialize (Ho _ Hr). unfold load_one, load_from_cache, load_from_object in El. unfold older_object in Ho.
    destruct (objects F (filename_relative_to p r)) as [[[m0|] t0]|] eqn:O; try contradiction.
    destruct Ho as [Hf [text [t' [Hs Lt]]]]. unfold check_if_is_dirty in El. rewrite Hf, O, Hs in El.
    destruct (Nat.ltb_spec t0 t'); [|lia]. injection El as <-. reflexivity. }
  rewrite (any_dirty_if main (loaded sh) p m Pa D Hpm Hi). reflexivity.
Qed.
Print Assumptions C32_indirect_edit_refuted.
(** C32 refuted in general: the text of a dependency that has an object file is never read, edited or not: replacing it by
    any other text changes no result. *)
Theorem C32_text_never_read_refuted : forall E kv name F F2 r,
  (forall f, objects F2 f = objects F f) ->
  (forall f, option_map snd (sources F2 f) = option_map snd (sources F f)) ->
  (forall f, f = [name] \/ no_object F f -> sources F2 f = sources F f) ->
  compiles E true kv name F r ->
  exists r', compiles E true kv name F2 r' /\ fst r' = fst r.
Proof.
  intros E kv name F F2 r Ho Ht Hs H.
  assert (C : forall m, check_if_is_dirty E F m = check_if_is_dirty E F2 m).
  { intro m. unfold check_if_is_dirty. rewrite Ho. specialize (Ht (m_file m)). destruct (sources F2 (m_file m)) as [[a b]|], (sources F (m_file m)) as [[a' b']|]; cbn in Ht; try discriminate; try reflexivity.
    injection Ht as ->. reflexivity. }
  assert (M : load_from_cache_from_filename E F [name] [name] = load_from_cache_from_filename E F2 [name] [name]).
  { unfold load_from_cache_from_filename, load_from_object. rewrite Ho. assert (S1 : forall p, load_from_source E F p [name] = load_from_source E F2 p [name]).
    { intro p. apply from_source_same. symmetry. apply Hs. left; reflexivity. }
    rewrite <- S1. destruct (objects F [name]) as [[[m|] tm]|]; [|reflexivity..]. rewrite C. reflexivity. }
  assert (L : forall p q, load_one E F true p q = load_one E F2 true p q).
  { intros p q. unfold load_one, load_from_cache, load_from_object. rewrite Ho. destruct (objects F _) as [[[m|] tm]|] eqn:O; [apply C|..];
      apply from_source_same; symmetry; apply Hs; right; unfold no_object; rewrite O; exact I. }
  destruct H as [main sh t order Lm R O|e Lm|Lm].
  - eexists. split; [eapply c_run; [rewrite <- M; exact Lm| |exact O]|apply compile_with_fs]. eapply run_agree; [|exact R]. intros p q _. apply L.
  - eexists. split; [apply c_main_failed; rewrite <- M; exact Lm|reflexivity].
  - eexists. split; [apply c_main_panics; rewrite <- M; exact Lm|reflexivity].
Qed.
Print Assumptions C32_text_never_read_refuted.
(** Which of the modules found out of date are acted upon: exactly those that another dependency imports. *)
Theorem C32_noticed_exactly : forall main ld, (forall m, passoc (m_path main) ld = Some m -> m_dirty m = false) ->
  any_dirty main ld = true <-> exists p m, passoc p ld = Some m /\ m_dirty m = true /\ imported_indirectly main ld p.
Proof. exact any_dirty_iff. Qed.
Print Assumptions C32_noticed_exactly.
Definition ex_three_edited : fs := edited ex_three_compiled ["lib"]%string ("x := 2" ++ nl ++ "---" ++ nl)%string 6.
Definition requires_of (o : outcome load_failure module) := match o with Ok m => Some (m_requires m, m_path m) | _ => None end.
Example C32_indirect_edit_nonvacuous : let (sh, t) := ex_end ex_three_edited false in
  load_from_cache_from_filename (ex_E 5) ex_three_edited [lit "main"] [lit "main"] = Ok (ex_main ex_three_edited)
  /\ load_run (load_one (ex_E 5) ex_three_edited true) (ex_main ex_three_edited) sh t /\ panicked t = false /\ In [lit "lib"] (map fst (loaded sh))
  /\ (forall r, reachable (load_one (ex_E 5) ex_three_edited true) (ex_main ex_three_edited) [lit "lib"] r -> older_object ex_three_edited (filename_relative_to [lit "lib"] r))
  /\ imported_indirectly (ex_main ex_three_edited) (loaded sh) [lit "lib"].
Proof.
  destruct (ex_end ex_three_edited false) as [sh t] eqn:X.
  split; [vm_compute; reflexivity|].
  split; [split; [rewrite <- X; apply exec_steps|replace t with (snd (ex_end ex_three_edited false)) by (rewrite X; reflexivity); vm_compute; reflexivity]|].
  replace t with (snd (ex_end ex_three_edited false)) by (rewrite X; reflexivity). replace sh with (fst (ex_end ex_three_edited false)) by (rewrite X; reflexivity).
  split; [vm_compute; reflexivity|]. split; [vm_compute; auto|]. split.
  - assert (W : forall p r, reachable (load_one (ex_E 5) ex_three_edited true) (ex_main ex_three_edited) p r -> In (p, r) [([lit "mid"], [lit "main"]); ([lit "lib"], [lit "mid"])]).
    { intros p r H. induction H as [p Hp|q r m p H IH L Hp].
      - vm_compute in Hp. destruct Hp as [Hp|[]]. rewrite <- Hp. left. vm_compute. reflexivity.
      - destruct IH as [IH|[IH|[]]]; injection IH as ? ?; subst q r.
        + assert (Q : Some (m_requires m, m_path m) = Some ([[lit "lib"]], [lit "mid"])) by (change (Some (m_requires m, m_path m)) with (requires_of (Ok m)); rewrite <- L; vm_compute; reflexivity).
          injection Q as Q1 Q2. rewrite Q1 in Hp. rewrite Q2. destruct Hp as [Hp|[]]. rewrite <- Hp. right; left. reflexivity.
        + assert (Q : Some (m_requires m, m_path m) = Some ([], [lit "lib"])) by (change (Some (m_requires m, m_path m)) with (requires_of (Ok m)); rewrite <- L; vm_compute; reflexivity).
          injection Q as Q1 Q2. rewrite Q1 in Hp. destruct Hp. }
    intros r H. apply W in H as Hr.
    clear H W. destruct Hr as [Hr|[Hr|[]]]; [discriminate Hr|]. injection Hr as <-. vm_compute. split; [reflexivity|]. do 2 eexists. split; [reflexivity|]. lia.
  - exists [[lit "mid"]]. split; [discriminate|]. split; [|split; [intros [Y|[]]; discriminate Y|vm_compute; auto]].
    assert (Q : m_path (ex_main ex_three_edited) = [lit "main"]) by (vm_compute; reflexivity). rewrite Q.
    constructor; [intros [Y|[]]; discriminate Y|]. constructor; [intros []|constructor].
Qed.

(** ** C33 *)
(** Without the cache: if main has no object file, or one older than its source, no object file has any influence, and none
    is written. Missing: a main module with an up-to-date object (below). *)
Theorem C33_no_cache_partial : forall E kv name F r, no_object F [name] \/ older_object F [name] ->
  compiles E false kv name F r ->
  snd r = F /\ exists r', compiles E false kv name (without_objects F) r' /\ fst r' = fst r.
Proof.
  intros E kv name F r Hm H. split; [destruct H; [apply compile_with_no_cache|reflexivity..]|]. revert H. apply compiles_same.
  - rewrite !main_not_clean by (try assumption; left; exact I). apply from_source_same. reflexivity.
  - intros p q. apply from_source_same. reflexivity.
Qed.
Print Assumptions C33_no_cache_partial.
Example C33_nonvacuous : older_object (edited ex_two_compiled ["main"] ("use lib" ++ nl ++ "---" ++ nl ++ "=x+x") 6)%string [lit "main"]
  /\ (exists F', yields (ex_E 7) false [] "main" (edited ex_both_edited ["main"] ("use lib" ++ nl ++ "---" ++ nl ++ "=x+x") 6)%string (Ok [[lit "=(2 + 2)"]]) F').
Proof.
  split; [vm_compute; split; [reflexivity|]; do 2 eexists; split; [reflexivity|]; apply Nat.leb_le; reflexivity|].
  eexists. apply (ex_run_yields _ _ _ _ _ false order2). vm_compute. reflexivity.
Qed.
(** C33 refuted: lib edited after compiling; with the cache switched off the old value is still written. *)
Theorem C33_clean_main_refuted : exists F', yields (ex_E 7) false [] "main" (edited ex_two_compiled ["lib"] ("x := 2" ++ nl ++ "---" ++ nl) 6)%string (Ok [[lit "=1"]]) F'.
Proof. eexists; apply (ex_run_yields _ _ _ _ _ false order2); vm_compute; reflexivity. Qed.
Print Assumptions C33_clean_main_refuted.

(** ** C53: a definition means the same in the main module and in an imported one *)
(** refuted: a parameter of an imported function is taken for the variable of that name *)
Theorem C53_imported_parameter_refuted : let code := ("x := 10" ++ nl ++ "fn f(x) x * 2" ++ nl)%string in
  (exists F', yields (ex_E 5) true [] "main" (ex_files [(["main"], code ++ "---" ++ nl ++ "=f(3)", 1)])%string (Ok [[lit "=(3 * 2)"]]) F')
  /\ (exists F', yields (ex_E 5) true [] "main" (ex_files [(["main"], "use lib" ++ nl ++ "---" ++ nl ++ "=f(3)", 1); (["lib"], code ++ "---" ++ nl, 1)])%string (Ok [[lit "=(10 * 2)"]]) F').
Proof.
  split; eexists; [apply (ex_run_yields _ _ _ _ _ false [["main"]]%string)|apply (ex_run_yields _ _ _ _ _ false order2)]; vm_compute; reflexivity.
Qed.
Print Assumptions C53_imported_parameter_refuted.

(** ** C54: compiling again *)
(** After a compilation that really compiled the main module, any later one in which the main source is unchanged gives the
    same sheet, if it succeeds at all. *)
Lemma compile_sheet E uc kv main sh t order F m F' : m_needs_eval main = false -> compile_with E uc kv main sh t order F = (Ok m, F') -> pr_sheet (m_program m) = pr_sheet (m_program main).
Proof.
  intros N H. unfold compile_with in H. destruct (panicked t); [discriminate|]. unfold load_main in H. destruct (any_dirty main (loaded sh)); [discriminate|].
  destruct (eval_dependencies E uc order (loaded sh) F) as [r F1]. destruct r as [ld| | |]; try discriminate. unfold merge_direct_dependencies in H. destruct (failed sh); [|discriminate].
  destruct (merge_required _ _ _) as [sc|]; [|discriminate]. unfold finish in H. cbn [m_needs_eval with_flags with_scope] in H. rewrite N in H. injection H as <- _. reflexivity.
Qed.
Lemma compile_writes E kv main sh t order F m F' : m_needs_eval main = true -> compile_with E true kv main sh t order F = (Ok m, F') ->
  m_file m = m_file main /\ m_version m = m_version main /\ m_needs_eval m = false /\ objects F' (m_file main) = Some (ODecoded m, e_now E).
Proof.
  intros N H. unfold compile_with in H. destruct (panicked t); [discriminate|]. unfold load_main in H. destruct (any_dirty main (loaded sh)); [discriminate|].
  destruct (eval_dependencies E true order (loaded sh) F) as [r F1]. destruct r as [ld| | |]; try discriminate. unfold merge_direct_dependencies in H. destruct (failed sh); [|discriminate].
  destruct (merge_required _ _ _) as [sc|]; [|discriminate]. unfold finish in H. cbn [m_needs_eval with_flags with_scope] in H. rewrite N in H.
  destruct (main_eval _ _ _ _); try discriminate. unfold write_object in H. destruct (e_writable E _); [|discriminate]. injection H as <- <-.
  cbn. rewrite path_eqb_refl. auto.
Qed.
Theorem C54_unchanged_partial : forall E kv name F m F' E2 use_cache kv2 F2 m2 F2' text t,
  no_object F [name] \/ older_object F [name] -> compiles E true kv name F (Ok m, F') ->
  e_version E <= e_version E2 -> sources F2 [name] = Some (text, t) -> t <= e_now E -> objects F2 [name] = objects F' [name] ->
  compiles E2 use_cache kv2 name F2 (Ok m2, F2') ->
  pr_sheet (m_program m2) = pr_sheet (m_program m).
Proof.
  intros E kv name F m F' E2 uc kv2 F2 m2 F2' text t Hm H V St T Ob H2. inversion H as [main sh th order L R O Eq| |]; subst.
  rewrite main_not_clean in L by exact Hm. destruct (from_source_shape _ _ _ _ _ L) as [A1 [A2 [A3 [A4 A5]]]].
  destruct (compile_writes _ _ _ _ _ _ _ _ _ A3 Eq) as [B1 [B2 [B3 B4]]]. rewrite A1 in *. rewrite B4 in Ob.
  assert (L2 : load_from_cache_from_filename E2 F2 [name] [name] = Ok (with_flags m false false)).
  { unfold load_from_cache_from_filename, load_from_object. rewrite Ob. unfold check_if_is_dirty. rewrite B1, Ob, St. destruct (Nat.ltb_spec (e_now E) t); [lia|]. cbn [bind m_dirty with_flags].
    rewrite B2, A5, B3. destruct (Nat.ltb_spec (e_version E2) (e_version E)); [lia|reflexivity]. }
  inversion H2 as [main2 sh2 th2 order2' L2' R2 O2 Eq2| |]; subst. rewrite L2 in L2'. injection L2' as <-.
  rewrite (compile_sheet _ _ _ (with_flags m false false) _ _ _ _ _ _ eq_refl Eq2). reflexivity.
Qed.
Print Assumptions C54_unchanged_partial.
Example C54_nonvacuous : no_object ex_two [lit "main"] /\ (exists F', yields (ex_E 7) true [] "main" ex_two_compiled (Ok [[lit "=1"]]) F').
Proof. split; [exact I|]. eexists. apply (ex_run_yields _ _ _ _ _ false order2). vm_compute. reflexivity. Qed.
(** C54 refuted: other key=value arguments are ignored when the main module is up to date. *)
Definition ex_kv (s : string) : list (str * node) := match parse_key_values (co_oracle ex_co) [lit s] [] with Ok l => l | _ => [] end.
Definition ex_one : fs := ex_files [(["main"], "=x", 1)]%string.
Theorem C54_key_values_refuted : let F := files_after (ex_run (ex_E 5) true (ex_kv "x=7") "main" ex_one false [["main"]]%string) ex_one in
  yields (ex_E 5) true (ex_kv "x=7") "main" ex_one (Ok [[lit "=7"]]) F
  /\ (exists F', yields (ex_E 6) true (ex_kv "x=8") "main" F (Ok [[lit "=7"]]) F')
  /\ (exists F', yields (ex_E 6) true (ex_kv "x=8") "main" (without_objects F) (Ok [[lit "=8"]]) F').
Proof.
  split; [|split; eexists]; apply (ex_run_yields _ _ _ _ _ false [["main"]]%string); vm_compute; reflexivity.
Qed.
Print Assumptions C54_key_values_refuted.

(** ** C55: an object file that cannot be decoded is as good as none *)
Definition drop_garbage (F : fs) : fs := {| sources := sources F; objects := fun f => match objects F f with Some (OGarbage, _) => None | o => o end |}.
Lemma garbage_dirty E F m : objects_in_place F -> forall f t, objects F f = Some (ODecoded m, t) -> check_if_is_dirty E F m = check_if_is_dirty E (drop_garbage F) m.
Proof. intros P f t H. unfold check_if_is_dirty. cbn [objects sources drop_garbage]. rewrite (P _ _ _ H), H. reflexivity. Qed.
Theorem C55_garbage_is_absent : forall E use_cache kv name F, objects_in_place F ->
  (forall r, compiles E use_cache kv name F r -> exists r', compiles E use_cache kv name (drop_garbage F) r' /\ fst r' = fst r)
  /\ (forall r, compiles E use_cache kv name (drop_garbage F) r -> exists r', compiles E use_cache kv name F r' /\ fst r' = fst r).
Proof.
  intros E uc kv name F P.
  assert (M : load_from_cache_from_filename E F [name] [name] = load_from_cache_from_filename E (drop_garbage F) [name] [name]).
  { unfold load_from_cache_from_filename, load_from_object. cbn [objects drop_garbage]. destruct (objects F [name]) as [[[m|] t]|] eqn:O; try (apply from_source_same; reflexivity).
    rewrite (garbage_dirty E F m P _ _ O). destruct (check_if_is_dirty E (drop_garbage F) m) as [m'| | |]; cbn [bind]; try reflexivity. }
  assert (L : forall p q, load_one E F uc p q = load_one E (drop_garbage F) uc p q).
  { intros p q. unfold load_one, load_from_cache, load_from_object. destruct uc; [|apply from_source_same; reflexivity]. cbn [objects drop_garbage].
    destruct (objects F (filename_relative_to p q)) as [[[m|] t]|] eqn:O; try (apply from_source_same; reflexivity). apply (garbage_dirty E F m P _ _ O). }
  split; intro r; apply compiles_same; auto.
Qed.
Print Assumptions C55_garbage_is_absent.
(** a crash while an object file is being written: that file is garbage afterwards *)
Definition crashed (F : fs) (f : file) (t : nat) : fs := {| sources := sources F; objects := fun g => if path_eqb g f then Some (OGarbage, t) else objects F g |}.
Example C55_nonvacuous : objects_in_place (crashed ex_two [lit "main"] 6)
  /\ (exists F', yields (ex_E 7) true [] "main" (crashed ex_two_compiled [lit "main"] 6) (Ok [[lit "=1"]]) F').
Proof.
  split; [intros f m t; cbn [objects crashed ex_two ex_files]; destruct (path_eqb f _); discriminate|].
  eexists. apply (ex_run_yields _ _ _ _ _ false order2). vm_compute. reflexivity.
Qed.

(** ** C56: what else was compiled before does not matter *)
(** refuted: lib compiled on its own leaves an object whose definitions are not evaluated; a program that imports lib then
    gets names that only lib can see *)
Definition ex_lib_base : fs := ex_files [(["main"], "use lib" ++ nl ++ "---" ++ nl ++ "=y", 1); (["lib"], "use base" ++ nl ++ "y := x + 1" ++ nl ++ "---" ++ nl, 1); (["base"], "x := 10" ++ nl ++ "---" ++ nl, 1)]%string.
Theorem C56_compiled_before_refuted : let F := files_after (ex_run (ex_E 5) true [] "lib" ex_lib_base false [["base"]; ["lib"]]%string) ex_lib_base in
  yields (ex_E 5) true [] "lib" ex_lib_base (Ok []) F
  /\ (exists F', yields (ex_E 6) true [] "main" ex_lib_base (Ok [[lit "=(10 + 1)"]]) F')
  /\ (exists F', yields (ex_E 6) true [] "main" F (Ok [[lit "=(x + 1)"]]) F').
Proof.
  split; [|split; eexists].
  - apply (ex_run_yields _ _ _ _ _ false [["base"]; ["lib"]]%string); vm_compute; reflexivity.
  - apply (ex_run_yields _ _ _ _ _ false [["base"]; ["lib"]; ["main"]]%string); vm_compute; reflexivity.
  - apply (ex_run_yields _ _ _ _ _ false [["base"]; ["lib"]; ["main"]]%string); vm_compute; reflexivity.
Qed.
Print Assumptions C56_compiled_before_refuted.

(** ** C57: object files of other versions *)
(** An up-to-date object of the main module written by a newer compiler is not used. *)
Theorem C57_newer_version_recompiled : forall E F name m t, objects_in_place F -> objects F [name] = Some (ODecoded m, t) -> e_version E < m_version m ->
  (exists text t', sources F [name] = Some (text, t')) ->
  load_from_cache_from_filename E F [name] [name] = load_from_source E F [name] [name].
Proof.
  intros E F name m t P O V [text [t' S]]. unfold load_from_cache_from_filename, load_from_object. rewrite O. unfold check_if_is_dirty. rewrite (P _ _ _ O), O, S.
  destruct (t <? t'); cbn [bind m_dirty with_flags]; [reflexivity|]. destruct (Nat.ltb_spec (e_version E) (m_version m)); [reflexivity|lia].
Qed.
Print Assumptions C57_newer_version_recompiled.
(** C57 refuted: one written by an older compiler is used, although the comment in the code says otherwise. *)
Theorem C57_older_version_refuted : forall E F name m t text t', objects_in_place F -> objects F [name] = Some (ODecoded m, t) -> m_version m < e_version E ->
  sources F [name] = Some (text, t') -> t' <= t ->
  load_from_cache_from_filename E F [name] [name] = Ok (with_flags m false (m_needs_eval m)).
Proof.
  intros E F name m t text t' P O V S T. unfold load_from_cache_from_filename, load_from_object. rewrite O. unfold check_if_is_dirty. rewrite (P _ _ _ O), O, S.
  destruct (Nat.ltb_spec t t'); [lia|]. cbn [bind m_dirty with_flags]. destruct (Nat.ltb_spec (e_version E) (m_version m)); [lia|reflexivity].
Qed.
Print Assumptions C57_older_version_refuted.
Definition ex_version (v : nat) (now : nat) : env := {| e_version := v; e_co := ex_co; e_writable := fun _ => true; e_now := now; e_sheet := ex_env; e_sched := [];
  e_fuel := 10; e_order := fun _ _ _ l => l; e_keys := fun _ l => l |}.
Example C57_nonvacuous : let F := files_after (ex_run (ex_version 3 5) true [] "main" ex_one false [["main"]]%string) ex_one in
  exists m text, objects F [lit "main"] = Some (ODecoded m, 5) /\ m_file m = [lit "main"] /\ m_version m = 3 /\ sources F [lit "main"] = Some (text, 1).
Proof. vm_compute. do 2 eexists. repeat split; reflexivity. Qed.
