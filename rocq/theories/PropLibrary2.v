(** * PropLibrary2: editing files that use a library (C83, C84, C85, C86 with imports). *)
From Verif Require Import Base BaseProofs Csvp SourceCode SourceSpec Ast AstParser Eval EvalSpec EvalProofs EvalRounds FormulaSpec Options CellParser CodeSectionSpec PropFormula
  Sheet SheetSpec SheetProofs SheetProofs2 ModuleProofs3 Loader LoaderSpec PropCell PropSheet PropVariables PropLoader PropCache PropModules PropCompile PropProgram SameSpec SameProofs SameLoad PropSame EditSpec EditProofs EditProofs2 EditLoad PropEdit PropKey HistorySpec LibrarySpec.
From Verif Require LoaderProofs HistoryProofs PropHistory PropLibrary.

Lemma linked_eta E F p q : linked E F p q -> q = {| pr_scope := pr_scope q; pr_sheet := pr_sheet p; pr_required := pr_required p |}.
Proof. intros (<- & <- & _). destruct q; reflexivity. Qed.
(** what is imported does not depend on the sheet *)
Lemma linked_sheet E F p q p' : linked E F p q -> pr_scope p' = pr_scope p -> pr_required p' = pr_required p ->
  linked E F p' {| pr_scope := pr_scope q; pr_sheet := pr_sheet p'; pr_required := pr_required p' |}.
Proof. intros (_ & _ & ms & H & M) Sc Rq. split; [reflexivity|]. split; [reflexivity|]. exists ms. cbn [pr_scope]. rewrite Sc, Rq. auto. Qed.

Lemma main_run E0 F0 Lib E F uc kv name text p q r G : main_with_library E0 F0 Lib E F name text p -> linked E0 F0 p q -> compiles E uc kv name F (r, G) ->
  match main_eval (e_sheet E) (e_sched E) q kv with
  | Ok p' => exists m, r = Ok m /\ m_program m = p'
  | Err e => r = Err (MainEval e) | Panic => r = Panic | NoFuel => r = NoFuel
  end.
Proof. intros (L & H & C & P & U & W & [t So] & No & Ld) Lk K. exact (PropLibrary.library_run _ _ _ _ _ _ _ _ _ _ _ _ _ _ L H C P U W So No Ld Lk K). Qed.
Lemma main_loads E0 F0 Lib E F name text p : main_with_library E0 F0 Lib E F name text p -> load_source (e_co E) text = Ok p.
Proof. intros (_ & _ & _ & _ & _ & _ & _ & _ & Ld). exact Ld. Qed.

(** ** C83 *)
Theorem C83_library : forall E0 F0 Lib E F F' use_cache args name text text' p p' q y x r m G r' G',
  main_with_library E0 F0 Lib E F name text p -> main_with_library E0 F0 Lib E F' name text' p' -> linked E0 F0 p q ->
  code_section (source_code_new text) = code_section (source_code_new text') -> EditSpec.edited y x (pr_sheet p) (pr_sheet p') ->
  compiles E use_cache args name F (r, G) -> r = Ok m -> compiles E use_cache args name F' (r', G') ->
  local_effect (pr_sheet p) y x (no_formula_at (pr_sheet p') y x) (module_sheet m) r'.
Proof.
  intros E0 F0 Lib E F F' uc args name text text' p p' q y x r m G r' G' M M' Lk Cs Ed K -> K'.
  pose proof (main_loads _ _ _ _ _ _ _ _ M) as Ld. pose proof (main_loads _ _ _ _ _ _ _ _ M') as Ld'. destruct (same_code _ _ _ _ _ Cs Ld Ld') as [Sc Rq].
  pose proof (load_plain _ _ _ Ld) as [_ [_ Fe]].
  pose proof (main_run _ _ _ _ _ _ _ _ _ _ _ _ _ M Lk K) as X. pose proof (main_run _ _ _ _ _ _ _ _ _ _ _ _ _ M' (linked_sheet _ _ _ _ _ Lk Sc Rq) K') as X'.
  rewrite (linked_eta _ _ _ _ Lk) in X. cbn [pr_scope] in X'. set (sc := pr_scope q) in *. clearbody sc.
  destruct (main_eval (e_sheet E) (e_sched E) {| pr_scope := sc; pr_sheet := pr_sheet p; pr_required := pr_required p |} args) as [o| | |] eqn:Hq; try discriminate X. destruct X as (m1 & Q & <-). injection Q as <-.
  assert (N : no_formula_at (pr_sheet p') y x -> exists q', main_eval (e_sheet E) (e_sched E) {| pr_scope := sc; pr_sheet := pr_sheet p'; pr_required := pr_required p' |} args = Ok q')
    by (eapply edit_text; [exact Ed|exact Fe|exact Hq]).
  destruct (main_eval (e_sheet E) (e_sched E) {| pr_scope := sc; pr_sheet := pr_sheet p'; pr_required := pr_required p' |} args) as [o'|e| |] eqn:Hq'.
  - destruct X' as (m' & -> & <-). cbn [local_effect]. eapply edit_ok; [exact Ed|exact Fe|exact Hq|exact Hq'].
  - subst r'. cbn [local_effect]. split; [intro Z; destruct (N Z) as [? Y]; discriminate Y|].
    assert (Y : exists a k, e = CellEval a k /\ addr_x a = x /\ is_copy_of (pr_sheet p) y (addr_y a)) by (eapply edit_err; [exact Ed|exact Fe|exact Hq|exact Hq']).
    destruct Y as (a & k & -> & Y). exists a, k. auto.
  - subst r'. intro Z; destruct (N Z) as [? Y]; discriminate Y.
  - subst r'. intro Z; destruct (N Z) as [? Y]; discriminate Y.
Qed.
Print Assumptions C83_library.

(** ** C84 *)
Theorem C84_library : forall E0 F0 Lib E F F' use_cache kvs args name text text' p p' q more r m G r' G',
  main_with_library E0 F0 Lib E F name text p -> main_with_library E0 F0 Lib E F' name text' p' -> linked E0 F0 p q ->
  (forall a, is_order (ev_order (e_sheet E) a)) -> parse_key_values (co_oracle (e_co E)) kvs [] = Ok args ->
  code_section (source_code_new text) = code_section (source_code_new text') -> appended (pr_sheet p) (pr_sheet p') more ->
  (forall r, In r (sheet_rows (pr_sheet p)) -> ~ unbounded r) -> (forall r x, In r more -> named r x -> ~ reads_name q args x /\ ~ place_name x) ->
  compiles E use_cache args name F (r, G) -> r = Ok m -> compiles E use_cache args name F' (r', G') ->
  match r' with
  | Ok m' => exists old new, sheet_rows (module_sheet m') = old ++ new /\ Forall2 alike_row (sheet_rows (module_sheet m)) old
  | Err e => ~ plain_rows more /\ ((e = MainEval MultipleInfiniteFills /\ two_unbounded more)
               \/ exists a k, e = MainEval (CellEval a k) /\ length (sheet_rows (module_sheet m)) <= addr_y a)
  | Panic | NoFuel => ~ plain_rows more
  end.
Proof.
  intros E0 F0 Lib E F F' uc kvs args name text text' p p' q more r m G r' G' M M' Lk Or Kv Cs Ap Nb Nn K -> K'.
  pose proof (main_loads _ _ _ _ _ _ _ _ M) as Ld. pose proof (main_loads _ _ _ _ _ _ _ _ M') as Ld'. destruct (same_code _ _ _ _ _ Cs Ld Ld') as [Sc Rq].
  pose proof (load_plain _ _ _ Ld) as [_ [_ Fe]]. pose proof (unbounded_tail _ _ _ Ap Nb) as Ut.
  pose proof (PropLibrary.linked_unique _ _ _ _ Lk (load_source_unique _ _ _ Ld)) as [_ U]. assert (Ua : NoDup (map fst args)) by (eapply key_values_unique; [|exact Kv]; constructor).
  pose proof (main_run _ _ _ _ _ _ _ _ _ _ _ _ _ M Lk K) as X. pose proof (main_run _ _ _ _ _ _ _ _ _ _ _ _ _ M' (linked_sheet _ _ _ _ _ Lk Sc Rq) K') as X'.
  destruct Lk as (Qs & _). rewrite <- Qs in Ap, Fe, Nb.
  set (q' := {| pr_scope := pr_scope q; pr_sheet := pr_sheet p'; pr_required := pr_required p' |}) in *.
  assert (Sq : pr_scope q' = pr_scope q) by reflexivity. assert (Hs' : pr_sheet p' = pr_sheet q') by reflexivity. clearbody q'. rewrite Hs' in Ap, Ut.
  destruct (main_eval (e_sheet E) (e_sched E) q args) as [o| | |] eqn:Hq; try discriminate X. destruct X as (m1 & Q & <-). injection Q as <-.
  assert (N : plain_rows more -> exists o', main_eval (e_sheet E) (e_sched E) q' args = Ok o').
  { intros [N1 N2]. eapply append_text; eauto. destruct (has_multiple_infinite_expands (pr_sheet q')); [destruct N2; apply Ut; reflexivity|reflexivity]. }
  destruct (main_eval (e_sheet E) (e_sched E) q' args) as [o'|e| |] eqn:Hq'.
  - destruct X' as (m' & -> & <-). eapply append_ok; eauto.
  - subst r'. split; [intro Z; destruct (N Z) as [? Y]; discriminate Y|]. destruct (append_err _ _ _ _ _ _ Or U Ua Sq Ap Fe Nb Nn _ Hq _ Hq') as [[-> H2]|(a & k & -> & H)]; [left|right; exists a, k; auto].
    split; [reflexivity|]. apply Ut. unfold eval_fills in H2. destruct Ap as [Fx _]. rewrite <- Fx, Fe in H2. destruct (has_multiple_infinite_expands (pr_sheet q')); [reflexivity|discriminate H2].
  - subst r'. intro Z; destruct (N Z) as [? Y]; discriminate Y.
  - subst r'. intro Z; destruct (N Z) as [? Y]; discriminate Y.
Qed.
Print Assumptions C84_library.

(** ** C85 *)
Theorem C85_library : forall E0 F0 Lib E F F' use_cache args name text text' p p' q r G r' G',
  main_with_library E0 F0 Lib E F name text p -> main_with_library E0 F0 Lib E F' name text' p' -> linked E0 F0 p q ->
  code_section (source_code_new text) = code_section (source_code_new text') -> written_out (pr_sheet p) (pr_sheet p') ->
  compiles E use_cache args name F (r, G) -> compiles E use_cache args name F' (r', G') -> same_cells r r'.
Proof.
  intros E0 F0 Lib E F F' uc args name text text' p p' q r G r' G' M M' Lk Cs Wo K K'.
  pose proof (main_loads _ _ _ _ _ _ _ _ M) as Ld. pose proof (main_loads _ _ _ _ _ _ _ _ M') as Ld'. destruct (same_code _ _ _ _ _ Cs Ld Ld') as [Sc Rq].
  pose proof (load_plain _ _ _ Ld) as [_ [_ Fe]].
  pose proof (main_run _ _ _ _ _ _ _ _ _ _ _ _ _ M Lk K) as X. pose proof (main_run _ _ _ _ _ _ _ _ _ _ _ _ _ M' (linked_sheet _ _ _ _ _ Lk Sc Rq) K') as X'.
  rewrite (linked_eta _ _ _ _ Lk) in X. cbn [pr_scope] in X'. set (sc := pr_scope q) in *. clearbody sc.
  pose proof (write_out_eval (e_sheet E) (e_sched E) {| pr_scope := sc; pr_sheet := pr_sheet p; pr_required := pr_required p |} {| pr_scope := sc; pr_sheet := pr_sheet p'; pr_required := pr_required p' |} args eq_refl Wo Fe) as Y.
  destruct (main_eval (e_sheet E) (e_sched E) {| pr_scope := sc; pr_sheet := pr_sheet p; pr_required := pr_required p |} args) as [o|e| |],
    (main_eval (e_sheet E) (e_sched E) {| pr_scope := sc; pr_sheet := pr_sheet p'; pr_required := pr_required p' |} args) as [o'|e'| |]; cbn [omap] in Y; try discriminate Y.
  - injection Y as Y. destruct X as (m & -> & Em), X' as (m' & -> & Em'). cbn [same_cells]. unfold module_sheet. rewrite Em, Em'. unfold sheet_contents in Y. apply (map_eq_Forall2 _ _ bare_contents). symmetry. exact Y.
  - subst. injection Y as <-. reflexivity.
  - subst. exact I.
  - subst. exact I.
Qed.
Print Assumptions C85_library.

(** ** C86 *)
Lemma merge_functions other : forall es sc sc', functions sc' = functions sc -> functions (fold_left (merge_export other) es sc') = functions (fold_left (merge_export other) es sc).
Proof. induction es as [|e es IH]; intros sc sc' H; cbn [fold_left]; [exact H|]. apply IH. cbn [merge_export functions]. rewrite H. reflexivity. Qed.
Lemma merges_agree ms x : forall req sc sc' r, functions sc' = functions sc -> (forall y, y <> x -> assoc y (variables sc') = assoc y (variables sc)) -> merge_scopes ms req sc = Some r ->
  exists r', merge_scopes ms req sc' = Some r' /\ functions r' = functions r /\ (forall y, y <> x -> assoc y (variables r') = assoc y (variables r))
    /\ (forall v, assoc x (variables sc') = Some v -> assoc x (variables r') = Some v).
Proof.
  induction req as [|i req IH]; intros sc sc' r Hf Hv M; cbn [merge_scopes] in *; [injection M as <-; eauto|]. destruct (passoc i ms) as [d|]; [|discriminate M].
  destruct (IH (scope_merge sc d) (scope_merge sc' d) r) as (r' & A & B & C & D); [apply merge_functions, Hf| |exact M|].
  - intros y Hy. unfold scope_merge. rewrite !(proj1 (scope_merge_spec _ _ _ _)), (Hv y Hy). reflexivity.
  - exists r'. split; [exact A|]. split; [exact B|]. split; [exact C|]. intros v Q. apply D. unfold scope_merge. rewrite (proj1 (scope_merge_spec _ _ _ _)), Q. reflexivity.
Qed.
(** As C86_key_value_is_a_definition, for files with imports; the name must not be imported either (an imported definition comes before the
    value given on the command line, but after a definition in the file). *)
Theorem C86_library : forall E0 F0 Lib E F F' use_cache a x e b args args' name l1 l2 rows p p' q r G r' G',
  (forall a, is_order (ev_order (e_sheet E) a)) ->
  Forall (fun kv => ~ gives x kv) b ->
  parse_key_values (co_oracle (e_co E)) (a ++ (x ++ [c_eq] ++ show e) :: b) [] = Ok args -> parse_key_values (co_oracle (e_co E)) (a ++ b) [] = Ok args' ->
  Forall (item_ok (co_oracle (e_co E))) (l1 ++ IVar x e :: l2) -> uses_first (l1 ++ l2) -> uses_first (l1 ++ IVar x e :: l2) ->
  Forall (fun j => file_line (item_text j)) (l1 ++ IVar x e :: l2) -> Forall file_line rows ->
  (forall e', ~ In (IVar x e') (l1 ++ l2)) ->
  main_with_library E0 F0 Lib E F name (file_of (l1 ++ l2) rows) p -> main_with_library E0 F0 Lib E F' name (file_of (l1 ++ IVar x e :: l2) rows) p' ->
  linked E0 F0 p q -> assoc x (variables (pr_scope q)) = None ->
  (forall r, In r (sheet_rows (pr_sheet p)) -> ~ named r x) ->
  compiles E use_cache args name F (r, G) -> compiles E use_cache args' name F' (r', G') -> same_result module_sheet r r'.
Proof.
  intros E0 F0 Lib E F F' uc a x e b args args' name l1 l2 rows p p' q r G r' G' Or Nb K K' Hok Uf1 Uf2 Hl Hr Nx M M' Lk Nq Nn C C'.
  assert (Ix : item_ok (co_oracle (e_co E)) (IVar x e)) by (apply Forall_app in Hok as [_ Hok]; apply Forall_cons_iff in Hok as [Hok _]; exact Hok). cbn [item_ok] in Ix. destruct Ix as [[Ix _] Pe].
  destruct (key_values_drop _ x _ e b (split_given x (show e) (ident_no_eq _ _ Ix)) Pe Nb a [] [] args args' (fun _ _ => eq_refl) K K') as [Ka Ko].
  assert (P : forall (Q : item -> Prop), Forall Q (l1 ++ IVar x e :: l2) -> Forall Q (l1 ++ l2)) by (intros Q H; apply Forall_app in H as [Ha Hb]; apply Forall_cons_iff in Hb as [_ Hb]; apply Forall_app; auto).
  pose proof (main_loads _ _ _ _ _ _ _ _ M) as Ld. pose proof (main_loads _ _ _ _ _ _ _ _ M') as Ld'.
  destruct (load_file _ _ _ _ (P _ Hok) Uf1 (P _ Hl) Hr Ld) as [Sc1 [Rq1 _]].
  destruct (load_file_again _ _ _ _ _ (P _ Hok) Uf1 (P _ Hl) Hr Hok Uf2 Hl Ld) as [p2 [Ld2 [Sc2 [Rq2 Al]]]]. rewrite Ld' in Ld2. injection Ld2 as <-.
  assert (Rq : pr_required p' = pr_required p) by (rewrite Rq1, Rq2, !map_app, !concat_app; reflexivity).
  assert (Ua : NoDup (map fst args)) by (eapply key_values_unique; [|exact K]; constructor).
  assert (Ua' : NoDup (map fst args')) by (eapply key_values_unique; [|exact K']; constructor).
  assert (Ce : plain (canonical e)) by (eapply key_values_plain; [|exact K|exact Ka]; intros ? ? Q; discriminate Q).
  assert (Bf : functions (pr_scope p') = functions (pr_scope p)) by (rewrite Sc1, Sc2; clear; rewrite !fold_left_app; cbn [fold_left]; generalize (fold_left item_scope l1 empty_scope);
    assert (G : forall l sc sc', functions sc' = functions sc -> functions (fold_left item_scope l sc') = functions (fold_left item_scope l sc)) by
      (induction l as [|i l IH]; intros sc sc' Q; cbn [fold_left]; [exact Q|]; apply IH; destruct i; cbn [item_scope define_variable define_function functions]; rewrite ?Q; auto);
    intro sc; apply G; reflexivity).
  assert (Bv : forall y, y <> x -> assoc y (variables (pr_scope p')) = assoc y (variables (pr_scope p))).
  { assert (A : agree_but (fun y => y <> x) (fun _ => True) (pr_scope p) (pr_scope p')).
    { rewrite Sc1, Sc2, !fold_left_app. cbn [fold_left]. apply items_agree. cbn [item_scope define_variable]. split; cbn [variables functions]; [|reflexivity]. intros y Hy. apply assoc_insert_other. exact Hy. }
    apply A. }
  assert (Vx : forall l sc, (forall e', ~ In (IVar x e') l) -> assoc x (variables (fold_left item_scope l sc)) = assoc x (variables sc)).
  { clear. induction l as [|i l IH]; intros sc N; cbn [fold_left]; [reflexivity|]. rewrite IH by (intros e' H; apply (N e'); right; exact H).
    destruct i as [m|n e'|n ps b0]; cbn [item_scope define_variable define_function variables]; try reflexivity. apply assoc_insert_other. intros <-. apply (N e'). left. reflexivity. }
  assert (V1 : assoc x (variables (pr_scope p')) = Some (NVar x (VAst (canonical e)))).
  { rewrite Sc2, fold_left_app. cbn [fold_left]. rewrite Vx by (intros e' H; apply (Nx e'); apply in_or_app; right; exact H). cbn [item_scope define_variable variables]. apply assoc_insert_same. }
  clear Vx.
  (* the same with what is imported *)
  pose proof Lk as Lk0. destruct Lk0 as (Qs & Qr & ms & Hm & Mg). destruct (merges_agree ms x _ _ (pr_scope p') _ Bf Bv Mg) as (sc' & Mg' & Cf & Cv & Cx). specialize (Cx _ V1).
  set (q' := {| pr_scope := sc'; pr_sheet := pr_sheet p'; pr_required := pr_required p' |}).
  assert (Lk' : linked E0 F0 p' q') by (split; [reflexivity|]; split; [reflexivity|]; exists ms; cbn [q' pr_scope]; rewrite Rq; auto).
  pose proof (PropLibrary.linked_unique _ _ _ _ Lk (load_source_unique _ _ _ Ld)) as [_ U]. pose proof (PropLibrary.linked_unique _ _ _ _ Lk' (load_source_unique _ _ _ Ld')) as [_ U'].
  set (qm := {| pr_scope := sc'; pr_sheet := pr_sheet q; pr_required := pr_required p' |}).
  assert (S1 : forall ev sched, same_result pr_sheet (main_eval ev sched q args) (main_eval ev sched qm args')).
  { intros ev sched. pose proof (values_main ev sched q qm args args' eq_refl) as X.
    assert (Y : omap pr_sheet (main_eval ev sched qm args') = omap pr_sheet (main_eval ev sched q args)).
    { apply X; [|exact Cf]. clear X. intros t Ht pos y. unfold variable_node. rewrite !sheet_scope_assoc by assumption. cbn [pr_scope pr_sheet qm].
      pose proof (load_plain _ _ _ Ld) as [_ [_ Fe]]. rewrite <- Qs in Fe. destruct (eval_fills_rows _ _ Ht Fe) as [Rt _]. rewrite Qs in Rt.
      destruct (str_eqb_spec y x) as [->|Ne].
      - rewrite Nq, Cx. assert (Sn : assoc x (sheet_variables t) = None).
        { unfold sheet_variables. rewrite row_variables_other; [reflexivity|]. rewrite Rt. intros r0 H0 N0. destruct (blocks_named _ _ _ _ _ H0 N0) as [r1 [H1 N1]]. apply (Nn r1 H1 N1). }
        rewrite Sn, Ka. assert (Ia : into_ast (VAst (canonical e)) pos = Ok (canonical e)) by (destruct pos; reflexivity). rewrite Ia. destruct (canonical e); try reflexivity; destruct Ce.
      - rewrite (Cv y Ne), (Ko y Ne). reflexivity. }
    clear X. destruct (main_eval ev sched q args) as [o| | |], (main_eval ev sched qm args') as [o'| | |]; cbn [omap] in Y; try discriminate Y; cbn [same_result]; auto; [|congruence].
    injection Y as Y. rewrite Y. split; [reflexivity|]. clear. induction (sheet_rows (pr_sheet o)) as [|r0 l IH]; constructor; [|exact IH]. repeat split. induction (row_cells r0) as [|c cs IHc]; constructor; [repeat split|exact IHc]. }
  assert (S2 : same_result pr_sheet (main_eval (e_sheet E) (e_sched E) qm args') (main_eval (e_sheet E) (e_sched E) q' args')).
  { apply same_programs; auto. - cbn [qm q' pr_sheet]. rewrite Qs. exact Al. - split; auto. }
  pose proof (same_result_trans _ _ _ _ (S1 (e_sheet E) (e_sched E)) S2) as S.
  pose proof (main_run _ _ _ _ _ _ _ _ _ _ _ _ _ M Lk C) as X. pose proof (main_run _ _ _ _ _ _ _ _ _ _ _ _ _ M' Lk' C') as X'. clear S1 S2.
  destruct (main_eval (e_sheet E) (e_sched E) q args) as [v|e1| |], (main_eval (e_sheet E) (e_sched E) q' args') as [v'|e'| |]; cbn [same_result] in S; try contradiction S.
  - destruct X as (m & -> & <-), X' as (m' & -> & <-). exact S.
  - subst. reflexivity.
  - subst. exact I.
  - subst. exact I.
Qed.
Print Assumptions C86_library.

(** ** The conditions are met *)
Import PropHistory PropLibrary.
(** the directory with the object files of the library, with this main file *)
Definition ex_with (t : str) : fs := with_source ex_used [lit "main"] (Some (t, 6)).
Definition ex_of (t : str) : program := match load_source ex_co t with Ok p => p | _ => ex_prog end.
Definition ex_joined (p : program) : program :=
  {| pr_scope := match merge_scopes [([lit "lib"], ex_meaning [lit "lib"])] [[lit "lib"]] (pr_scope p) with Some sc => sc | None => empty_scope end; pr_sheet := pr_sheet p; pr_required := pr_required p |}.
Lemma changed_object U f t n : match objects U f with Some (ODecoded m, t0) => m_file m = f /\ t0 < n | _ => False end -> older_object (with_source U f (Some (t, n))) f.
Proof.
  unfold older_object, with_source. cbn [objects sources]. destruct (objects U f) as [[[m|] t0]|]; try contradiction. intros [Q1 Q2]. split; [exact Q1|]. exists t, n. split; [|exact Q2].
  destruct (LoaderProofs.path_eqb_spec f f); [reflexivity|congruence].
Qed.
Lemma ex_with_library t p : load_source (e_co (ex_E 7)) t = Ok p -> pr_required p = [[lit "lib"]] -> main_with_library (ex_E 5) ex_split ex_library (ex_E 7) (ex_with t) (lit "main") t p.
Proof.
  intros Ld Rq. destruct C79_nonvacuous as (L & _).
  assert (Sl : forall f : file, In f [[lit "lib"]; [lit "base"]] -> sources (ex_with t) f = sources ex_split f) by (intros f [<-|[<-|[]]]; vm_compute; reflexivity).
  assert (So : sources (ex_with t) [lit "main"] = Some (t, 6)) by reflexivity.
  split; [exact L|]. split; [|split; [repeat split|split; [|split; [|split; [reflexivity|split; [exists 6; exact So|split; [|exact Ld]]]]]]].
  - apply h_edit; [|intros p0 [<- [H|[H|[]]]]; discriminate H]. eapply h_compile with (E := ex_E 5) (use_cache := true) (kv := []) (name := lit "main"); [apply h_start; reflexivity|repeat split|..].
    + apply ex_outside; [reflexivity|]. apply Nat.leb_le. reflexivity.
    + apply ex_uses; [reflexivity|vm_compute; reflexivity].
    + apply ex_compiles. vm_compute. reflexivity.
  - apply ex_outside; [exact Sl|]. apply Nat.leb_le. reflexivity.
  - apply ex_uses; [exact Sl|]. unfold load_from_source. rewrite So, Ld. exact Rq.
  - right. apply changed_object. vm_compute. split; [reflexivity|apply Nat.leb_le; reflexivity].
Qed.
Lemma ex_with_linked p : pr_required p = [[lit "lib"]] -> merge_scopes [([lit "lib"], ex_meaning [lit "lib"])] [[lit "lib"]] (pr_scope p) <> None -> linked (ex_E 5) ex_split p (ex_joined p).
Proof.
  intros Rq N. split; [reflexivity|]. split; [reflexivity|]. exists [([lit "lib"], ex_meaning [lit "lib"])]. rewrite Rq. split.
  - intros i [<-|[]]. exists 3, (ex_meaning [lit "lib"]). split; vm_compute; reflexivity.
  - unfold ex_joined. cbn [pr_scope]. destruct (merge_scopes _ _ (pr_scope p)); [reflexivity|contradiction].
Qed.
(** a formula that uses the library, and two edits of it; a row at the end; a fill and the same written out *)
Definition ex_top : string := "use lib" ++ nl ++ "rate := 2" ++ nl ++ "---" ++ nl.
Definition ex_one_cell (t : string) : string := ex_top ++ "a," ++ t ++ nl ++ "end".
Definition ex_texts : list string := [ex_one_cell "=fee"; ex_one_cell "=fee * rate"; ex_one_cell "x"; ex_one_cell "=fee" ++ nl ++ "[[var=z]]1,=z"; ex_top ++ "![[fill=2]]=fee"; ex_top ++ "=fee" ++ nl ++ "=fee"]%string.
Lemma ex_texts_ok t : In t ex_texts -> load_source (e_co (ex_E 7)) (lit t) = Ok (ex_of (lit t)) /\ pr_required (ex_of (lit t)) = [[lit "lib"]]
  /\ main_with_library (ex_E 5) ex_split ex_library (ex_E 7) (ex_with (lit t)) (lit "main") (lit t) (ex_of (lit t)) /\ linked (ex_E 5) ex_split (ex_of (lit t)) (ex_joined (ex_of (lit t))).
Proof.
  intro I. assert (Q : load_source (e_co (ex_E 7)) (lit t) = Ok (ex_of (lit t)) /\ pr_required (ex_of (lit t)) = [[lit "lib"]] /\ merge_scopes [([lit "lib"], ex_meaning [lit "lib"])] [[lit "lib"]] (pr_scope (ex_of (lit t))) <> None).
  { repeat (destruct I as [<-|I]; [split; [vm_compute; reflexivity|split; [vm_compute; reflexivity|vm_compute; discriminate]]|]). destruct I. }
  destruct Q as (A & B & C). split; [exact A|]. split; [exact B|]. split; [apply ex_with_library; assumption|apply ex_with_linked; assumption].
Qed.
Example C83_library_nonvacuous :
  (forall t, In t ex_texts -> main_with_library (ex_E 5) ex_split ex_library (ex_E 7) (ex_with (lit t)) (lit "main") (lit t) (ex_of (lit t)) /\ linked (ex_E 5) ex_split (ex_of (lit t)) (ex_joined (ex_of (lit t)))
     /\ code_section (source_code_new (lit t)) = Some (lit ("use lib" ++ nl ++ "rate := 2")))
  /\ (forall f, In f [[lit "lib"]; [lit "base"]] -> ~ no_object (ex_with (lit (ex_one_cell "=fee"))) f)
  /\ EditSpec.edited 0 1 (pr_sheet (ex_of (lit (ex_one_cell "=fee")))) (pr_sheet (ex_of (lit (ex_one_cell "=fee * rate"))))
  /\ EditSpec.edited 0 1 (pr_sheet (ex_of (lit (ex_one_cell "=fee")))) (pr_sheet (ex_of (lit (ex_one_cell "x"))))
  /\ (exists G, yields (ex_E 7) true [] "main" (ex_with (lit (ex_one_cell "=fee"))) (Ok [[lit "a"; lit "=(100 * 2)"]; [lit "end"]]) G)
  /\ (exists G, yields (ex_E 7) true [] "main" (ex_with (lit (ex_one_cell "=fee * rate"))) (Ok [[lit "a"; lit "=((100 * 2) * 2)"]; [lit "end"]]) G)
  /\ (exists G, yields (ex_E 7) true [] "main" (ex_with (lit (ex_one_cell "x"))) (Ok [[lit "a"; lit "x"]; [lit "end"]]) G).
Proof.
  split; [intros t I; destruct (ex_texts_ok t I) as (_ & _ & A & B); split; [exact A|split; [exact B|repeat (destruct I as [<-|I]; [vm_compute; reflexivity|]); destruct I]]|].
  split; [intros f [<-|[<-|[]]]; vm_compute; auto|].
  do 2 (split; [apply edited_check; [vm_compute; reflexivity|vm_compute; reflexivity|];
    intros i Hi; destruct i as [|[|i]]; cbn [Nat.eqb]; [|cells|exfalso; vm_compute in Hi; lia];
    apply but_check; try (vm_compute; reflexivity); intros j Hj N; destruct j as [|[|j]]; [cells|congruence|exfalso; vm_compute in Hj; lia]|]).
  do 2 (split; [eexists; apply (ex_run_yields _ _ _ _ _ false split_order); vm_compute; reflexivity|]). eexists; apply (ex_run_yields _ _ _ _ _ false split_order); vm_compute; reflexivity.
Qed.
Definition ex_lib_long : string := ex_one_cell "=fee" ++ nl ++ "[[var=z]]1,=z".
Definition ex_lib_more : list row := skipn 2 (sheet_rows (pr_sheet (ex_of (lit ex_lib_long)))).
Example C84_library_nonvacuous :
  In ex_lib_long ex_texts /\ appended (pr_sheet (ex_of (lit (ex_one_cell "=fee")))) (pr_sheet (ex_of (lit ex_lib_long))) ex_lib_more
  /\ (forall r, In r (sheet_rows (pr_sheet (ex_of (lit (ex_one_cell "=fee"))))) -> ~ unbounded r)
  /\ (forall r x, In r ex_lib_more -> named r x -> ~ reads_name (ex_joined (ex_of (lit (ex_one_cell "=fee")))) [] x /\ ~ place_name x)
  /\ (exists r, In r ex_lib_more /\ named r (lit "z"))
  /\ (exists G, yields (ex_E 7) true [] "main" (ex_with (lit ex_lib_long)) (Ok [[lit "a"; lit "=(100 * 2)"]; [lit "end"]; [lit "1"; lit "=A3"]]) G).
Proof.
  split; [right; right; right; left; reflexivity|]. split; [|split; [|split; [|split]]].
  - split; [vm_compute; reflexivity|]. exists (firstn 2 (sheet_rows (pr_sheet (ex_of (lit ex_lib_long))))). split; [symmetry; apply firstn_skipn|]. cells.
  - apply bounded_check. vm_compute. reflexivity.
  - intros r x H N. assert (X : x = lit "z").
    { pose proof (named_in _ _ _ H N) as X. assert (Y : flat_map names_of ex_lib_more = [lit "z"]) by (vm_compute; reflexivity). rewrite Y in X. destruct X as [X|[]]. symmetry. exact X. }
    subst x. split; [apply not_read; vm_compute; reflexivity|]. eapply not_place; [vm_compute; reflexivity|reflexivity].
  - exists (nth 0 ex_lib_more default_row). split; [vm_compute; left; reflexivity|]. right. exists (nth 0 (row_cells (nth 0 ex_lib_more default_row)) no_cell). split; [vm_compute; left; reflexivity|]. vm_compute. reflexivity.
  - eexists; apply (ex_run_yields _ _ _ _ _ false split_order); vm_compute; reflexivity.
Qed.
Example C85_library_nonvacuous :
  In (ex_top ++ "![[fill=2]]=fee")%string ex_texts /\ In (ex_top ++ "=fee" ++ nl ++ "=fee")%string ex_texts
  /\ written_out (pr_sheet (ex_of (lit (ex_top ++ "![[fill=2]]=fee")))) (pr_sheet (ex_of (lit (ex_top ++ "=fee" ++ nl ++ "=fee"))))
  /\ (exists G, yields (ex_E 7) true [] "main" (ex_with (lit (ex_top ++ "![[fill=2]]=fee"))) (Ok [[lit "=(100 * 2)"]; [lit "=(100 * 2)"]]) G).
Proof.
  split; [do 4 right; left; reflexivity|]. split; [do 5 right; left; reflexivity|]. split.
  - set (rs := sheet_rows (pr_sheet (ex_of (lit (ex_top ++ "![[fill=2]]=fee"))))). exists [], (nth 0 rs default_row), [], 2. eexists. split; [|split; [|split; [|split]]].
    + intros x N. pose proof (named_in [nth 0 rs default_row] _ x (or_introl eq_refl) N) as X. assert (Y : flat_map names_of [nth 0 rs default_row] = []) by (vm_compute; reflexivity). rewrite Y in X. destruct X.
    + vm_compute. reflexivity.
    + vm_compute. reflexivity.
    + vm_compute. reflexivity.
    + cells.
  - eexists; apply (ex_run_yields _ _ _ _ _ false split_order); vm_compute; reflexivity.
Qed.
(** C86: the rate on the command line, or defined after the import *)
Definition ex_uses_lib : item := IUse (lit "lib").
Definition ex_lib_rows : list str := [lit "=fee * rate"].
Definition ex_given : str := file_of ([ex_uses_lib] ++ []) ex_lib_rows.
Definition ex_defined : str := file_of ([ex_uses_lib] ++ ex_rate :: []) ex_lib_rows.
Example C86_library_nonvacuous :
  parse_key_values (co_oracle (e_co (ex_E 7))) ([] ++ (lit "rate" ++ [c_eq] ++ show (NInt true None 5)) :: []) [] = Ok ex_args
  /\ Forall (item_ok (co_oracle (e_co (ex_E 7)))) ([ex_uses_lib] ++ ex_rate :: []) /\ uses_first ([ex_uses_lib] ++ []) /\ uses_first ([ex_uses_lib] ++ ex_rate :: [])
  /\ Forall (fun j => file_line (item_text j)) ([ex_uses_lib] ++ ex_rate :: []) /\ Forall file_line ex_lib_rows
  /\ main_with_library (ex_E 5) ex_split ex_library (ex_E 7) (ex_with ex_given) (lit "main") ex_given (ex_of ex_given)
  /\ main_with_library (ex_E 5) ex_split ex_library (ex_E 7) (ex_with ex_defined) (lit "main") ex_defined (ex_of ex_defined)
  /\ linked (ex_E 5) ex_split (ex_of ex_given) (ex_joined (ex_of ex_given)) /\ assoc (lit "rate") (variables (pr_scope (ex_joined (ex_of ex_given)))) = None
  /\ (forall r, In r (sheet_rows (pr_sheet (ex_of ex_given))) -> ~ named r (lit "rate"))
  /\ (exists G, yields (ex_E 7) true ex_args "main" (ex_with ex_given) (Ok [[lit "=((100 * 2) * 5%)"]]) G)
  /\ (exists G, yields (ex_E 7) true [] "main" (ex_with ex_defined) (Ok [[lit "=((100 * 2) * 5%)"]]) G).
Proof.
  split; [vm_compute; reflexivity|]. split; [repeat constructor; try (vm_compute; reflexivity); try discriminate; simpl; auto 10; vm_compute; discriminate|].
  split; [reflexivity|]. split; [reflexivity|]. split; [repeat constructor; vm_compute; reflexivity|]. split; [repeat constructor; vm_compute; reflexivity|].
  split; [apply ex_with_library; vm_compute; reflexivity|]. split; [apply ex_with_library; vm_compute; reflexivity|].
  split; [apply ex_with_linked; [vm_compute; reflexivity|vm_compute; discriminate]|]. split; [vm_compute; reflexivity|]. split.
  - intros r H N. pose proof (named_in _ _ _ H N) as X. assert (Y : flat_map names_of (sheet_rows (pr_sheet (ex_of ex_given))) = []) by (vm_compute; reflexivity). rewrite Y in X. destruct X.
  - split; eexists; apply (ex_run_yields _ _ _ _ _ false split_order); vm_compute; reflexivity.
Qed.
(** If the library has the name, the two differ: the imported definition comes before the value on the command line, but not before the
    definition in the file. *)
Theorem C86_imported_refuted : exists args, parse_key_values (co_oracle ex_co) [lit "price=5"] [] = Ok args
  /\ (exists G, yields (ex_E 7) true args "main" (ex_with (lit ("use lib" ++ nl ++ "---" ++ nl ++ "=price"))) (Ok [[lit "=100"]]) G)
  /\ (exists G, yields (ex_E 7) true [] "main" (ex_with (lit ("use lib" ++ nl ++ "price := 5" ++ nl ++ "---" ++ nl ++ "=price"))) (Ok [[lit "=5"]]) G).
Proof. eexists. split; [vm_compute; reflexivity|]. split; eexists; apply (ex_run_yields _ _ _ _ _ false split_order); vm_compute; reflexivity. Qed.
Print Assumptions C86_imported_refuted.
