(** * PropEdit: what editing a spreadsheet does to its output (C83, C84, C85). *)
From Verif Require Import Base BaseProofs Csvp SourceCode SourceSpec Ast AstParser Eval EvalSpec EvalProofs EvalRounds FormulaSpec Options CellParser CodeSectionSpec PropFormula
  Sheet SheetSpec SheetProofs SheetProofs2 ModuleProofs3 Loader LoaderSpec PropCell PropSheet PropVariables PropLoader PropCache PropModules PropCompile SameSpec SameProofs SameLoad PropSame EditSpec EditProofs EditProofs2 EditLoad.

(** the same code section defines and imports the same *)
Lemma same_code co text text' p p' : code_section (source_code_new text) = code_section (source_code_new text') -> load_source co text = Ok p -> load_source co text' = Ok p' ->
  pr_scope p' = pr_scope p /\ pr_required p' = pr_required p.
Proof.
  unfold load_source. cbv zeta. intros <-. destruct (match code_section (source_code_new text) with Some s => _ | None => _ end) as [[sc req]| | |]; cbn [bind]; try discriminate.
  destruct (sheet_parse co (source_code_new text)); try discriminate. destruct (sheet_parse co (source_code_new text')); try discriminate. cbn [bind]. intros H H'. injection H as <-. injection H' as <-. auto.
Qed.

(** ** C83 *)
(** what an edit of the cell in row [y] and column [x] of the sheet [s] can make of the output [o] *)
Definition local_effect (s : spreadsheet) (y x : nat) (text_only : Prop) (o : spreadsheet) (r' : outcome compile_error module) : Prop :=
  match r' with
  | Ok m' => changed s y x o (module_sheet m')
  | Err e => ~ text_only /\ exists a k, e = MainEval (CellEval a k) /\ addr_x a = x /\ is_copy_of s y (addr_y a)
  | Panic | NoFuel => ~ text_only
  end.
Lemma edit_pair E uc args name F F' text text' time time' p p' y x :
  sources F [name] = Some (text, time) -> no_object F [name] \/ older_object F [name] ->
  sources F' [name] = Some (text', time') -> no_object F' [name] \/ older_object F' [name] ->
  load_source (e_co E) text = Ok p -> load_source (e_co E) text' = Ok p' ->
  code_section (source_code_new text) = code_section (source_code_new text') -> EditSpec.edited y x (pr_sheet p) (pr_sheet p') ->
  (forall q w, reachable (load_one E F uc) (as_main E name p) q w -> load_one E F uc q w = load_one E F' uc q w) ->
  forall r m, compiles E uc args name F r -> fst r = Ok m ->
  exists r', compiles E uc args name F' r' /\ local_effect (pr_sheet p) y x (no_formula_at (pr_sheet p') y x) (module_sheet m) (fst r').
Proof.
  intros So No So' No' Ld Ld' Cs Ed La r m C Em.
  destruct (same_code _ _ _ _ _ Cs Ld Ld') as [Sc Rq]. pose proof (load_plain _ _ _ Ld) as [_ [_ Fe]].
  destruct (edit_main E uc args args name F F' text text' time time' p p'
    (fun o o' => forall s, o = Ok s -> match o' with Ok s' => changed (pr_sheet p) y x s s'
       | Err e => ~ no_formula_at (pr_sheet p') y x /\ exists a k, e = CellEval a k /\ addr_x a = x /\ is_copy_of (pr_sheet p) y (addr_y a) | _ => ~ no_formula_at (pr_sheet p') y x end)
    No No' So So' Ld Ld' (eq_sym Rq) La) with (r := r) as [r' [C' B]]; [|exact C|].
  - intros ld sc Mr. rewrite Sc. exists sc. split; [exact Mr|]. intros s Hs.
    destruct (main_eval (e_sheet E) (e_sched E) {| pr_scope := sc; pr_sheet := pr_sheet p; pr_required := pr_required p |} args) as [q| | |] eqn:Hq; try discriminate Hs. cbn [omap] in Hs. injection Hs as <-.
    assert (N : no_formula_at (pr_sheet p') y x -> exists q', main_eval (e_sheet E) (e_sched E) {| pr_scope := sc; pr_sheet := pr_sheet p'; pr_required := pr_required p' |} args = Ok q')
      by (eapply edit_text; [exact Ed|exact Fe|exact Hq]).
    destruct (main_eval (e_sheet E) (e_sched E) {| pr_scope := sc; pr_sheet := pr_sheet p'; pr_required := pr_required p' |} args) as [q'|e| |] eqn:Hq'; cbn [omap].
    + eapply edit_ok; [exact Ed|exact Fe|exact Hq|exact Hq'].
    + split; [|eapply edit_err; [exact Ed|exact Fe|exact Hq|exact Hq']]. intro Z. destruct (N Z) as [q' X]. discriminate X.
    + intro Z. destruct (N Z) as [q' X]. discriminate X.
    + intro Z. destruct (N Z) as [q' X]. discriminate X.
  - exists r'. split; [exact C'|]. destruct (both_ok _ _ _ _ _ _ _ B Em) as [o' [H D]]. specialize (H _ eq_refl). destruct o' as [s|e| |].
    + destruct D as [m' [-> <-]]. exact H.
    + rewrite D. destruct H as [N [a [k [-> X]]]]. split; [exact N|]. exists a, k. auto.
    + rewrite D. exact H.
    + rewrite D. exact H.
Qed.
(** Changing what one cell of a file says - its text, formula or options, not its name - changes only that cell (and its copies,
    if its row is filled) in the output: if the file compiled before, then afterwards it compiles to the same output everywhere
    else, or the compilation fails with an error that names the cell or one of its copies (or evaluating the new formula does not
    end). If the cell is plain text now, it compiles. With imports: for every compilation of the old file there is such a
    compilation of the new one. *)
Theorem C83_edit_is_local : forall E use_cache args name F F' text text' time time' p p' y x,
  sources F [name] = Some (text, time) -> no_object F [name] \/ older_object F [name] ->
  sources F' [name] = Some (text', time') -> no_object F' [name] \/ older_object F' [name] ->
  same_elsewhere F F' name -> objects_in_place F -> main_not_imported E F use_cache name ->
  load_source (e_co E) text = Ok p -> load_source (e_co E) text' = Ok p' ->
  code_section (source_code_new text) = code_section (source_code_new text') -> EditSpec.edited y x (pr_sheet p) (pr_sheet p') ->
  forall r m, compiles E use_cache args name F r -> fst r = Ok m ->
  exists r', compiles E use_cache args name F' r' /\ local_effect (pr_sheet p) y x (no_formula_at (pr_sheet p') y x) (module_sheet m) (fst r').
Proof.
  intros E uc args name F F' text text' time time' p p' y x So No So' No' Se Op Nm Ld Ld' Cs Ed.
  eapply edit_pair; eauto. intros q w Hq. eapply load_elsewhere; [exact Se|exact Op|exact Nm| |exact Hq]. unfold load_from_source. rewrite So, Ld. reflexivity.
Qed.
Print Assumptions C83_edit_is_local.
(** without imports every compilation of the new file is such *)
Theorem C83_no_imports : forall E use_cache args name F F' text text' time time' p p' y x,
  sources F [name] = Some (text, time) -> no_object F [name] \/ older_object F [name] ->
  sources F' [name] = Some (text', time') -> no_object F' [name] \/ older_object F' [name] ->
  load_source (e_co E) text = Ok p -> load_source (e_co E) text' = Ok p' -> pr_required p = [] ->
  code_section (source_code_new text) = code_section (source_code_new text') -> EditSpec.edited y x (pr_sheet p) (pr_sheet p') ->
  forall r m r', compiles E use_cache args name F r -> fst r = Ok m -> compiles E use_cache args name F' r' ->
  local_effect (pr_sheet p) y x (no_formula_at (pr_sheet p') y x) (module_sheet m) (fst r').
Proof.
  intros E uc args name F F' text text' time time' p p' y x So No So' No' Ld Ld' Nr Cs Ed r m r' C Em C'.
  destruct (same_code _ _ _ _ _ Cs Ld Ld') as [_ Rq].
  destruct (edit_pair E uc args name F F' text text' time time' p p' y x So No So' No' Ld Ld' Cs Ed) with (r := r) (m := m) as [r'' [C'' H]]; [|exact C|exact Em|].
  - intros q w Hr. destruct (no_imports_reach _ _ _ _ _ _ Nr Hr).
  - rewrite (no_imports_one E uc args name F' text' time' p' r' r'' No' So' Ld' ltac:(congruence) C' C''). exact H.
Qed.
Print Assumptions C83_no_imports.

(** ** C84 *)
Lemma unbounded_tail s s' more : appended s s' more -> (forall r, In r (sheet_rows s) -> ~ unbounded r) ->
  has_multiple_infinite_expands s' = true <-> two_unbounded more.
Proof.
  intros [_ [first [Er Al]]] Nb. assert (Nf : forall r, In r first -> ~ unbounded r).
  { intros r Hr [f [U1 U2]]. apply In_nth_error in Hr as [i Hi]. destruct (nth_both first (sheet_rows s) i r (eq_sym (EvalProofs.Forall2_len _ _ _ Al)) Hi) as [r0 H0].
    destruct (Forall2_nth_l _ _ _ _ _ Al H0) as [r1 [H1 A]]. rewrite Hi in H1. injection H1 as <-. apply (Nb r0 (nth_error_In _ _ H0)). exists f. split; [|exact U2]. rewrite (proj1 (proj2 A)). exact U1. }
  unfold has_multiple_infinite_expands. rewrite multiple_infinite_spec, Er. unfold two_unbounded. split.
  - intros [[X _]|[i [j [ri [rj [L [Hi [Hj [Ui Uj]]]]]]]]]; [discriminate X|].
    assert (Li : length first <= i) by (destruct (le_lt_dec (length first) i) as [G|G]; [exact G|]; rewrite nth_error_app1 in Hi by exact G; destruct (Nf ri (nth_error_In _ _ Hi) Ui)).
    rewrite nth_error_app2 in Hi, Hj by lia. exists (i - length first), (j - length first), ri, rj. repeat split; auto; lia.
  - intros [i [j [ri [rj [L [Hi [Hj U]]]]]]]. right. exists (length first + i), (length first + j), ri, rj. rewrite !nth_error_app2 by lia.
    replace (length first + i - length first) with i by lia. replace (length first + j - length first) with j by lia. split; [lia|]. auto.
Qed.
(** Adding rows at the end of a file leaves the rows that were there as they are: if the file compiled before, then afterwards it
    compiles to the same rows followed by further ones, or compiling fails with an error that names a cell below the old rows, or
    because two of the added rows are filled without a bound (or evaluating does not end). If the added rows are plain text it
    compiles. The old file must have no fill without a bound (it would have less room: see C84_unbounded_refuted) and must not
    read the names that the added rows define (see C84_name_refuted). *)
Theorem C84_rows_at_the_end : forall E use_cache kvs args name F F' text text' time time' p p' more,
  (forall a, is_order (ev_order (e_sheet E) a)) -> parse_key_values (co_oracle (e_co E)) kvs [] = Ok args ->
  sources F [name] = Some (text, time) -> no_object F [name] \/ older_object F [name] ->
  sources F' [name] = Some (text', time') -> no_object F' [name] \/ older_object F' [name] ->
  load_source (e_co E) text = Ok p -> load_source (e_co E) text' = Ok p' -> pr_required p = [] ->
  code_section (source_code_new text) = code_section (source_code_new text') -> appended (pr_sheet p) (pr_sheet p') more ->
  (forall r, In r (sheet_rows (pr_sheet p)) -> ~ unbounded r) -> (forall r x, In r more -> named r x -> ~ reads_name p args x /\ ~ place_name x) ->
  forall r m r', compiles E use_cache args name F r -> fst r = Ok m -> compiles E use_cache args name F' r' ->
  match fst r' with
  | Ok m' => exists old new, sheet_rows (module_sheet m') = old ++ new /\ Forall2 alike_row (sheet_rows (module_sheet m)) old
  | Err e => ~ plain_rows more /\ ((e = MainEval MultipleInfiniteFills /\ two_unbounded more)
               \/ exists a k, e = MainEval (CellEval a k) /\ length (sheet_rows (module_sheet m)) <= addr_y a)
  | Panic | NoFuel => ~ plain_rows more
  end.
Proof.
  intros E uc kvs args name F F' text text' time time' p p' more Or K So No So' No' Ld Ld' Nr Cs Ap Nb Nn r m r' C Em C'.
  destruct (same_code _ _ _ _ _ Cs Ld Ld') as [Sc Rq]. pose proof (load_plain _ _ _ Ld) as [_ [_ Fe]]. pose proof (unbounded_tail _ _ _ Ap Nb) as Ut.
  pose proof (load_source_unique _ _ _ Ld) as [_ U]. assert (Ua : NoDup (map fst args)) by (eapply key_values_unique; [|exact K]; constructor).
  destruct (edit_main E uc args args name F F' text text' time time' p p'
    (fun o o' => forall s, o = Ok s -> match o' with Ok s' => exists old new, sheet_rows s' = old ++ new /\ Forall2 alike_row (sheet_rows s) old
       | Err e => ~ plain_rows more /\ ((e = MultipleInfiniteFills /\ two_unbounded more) \/ exists a k, e = CellEval a k /\ length (sheet_rows s) <= addr_y a) | _ => ~ plain_rows more end)
    No No' So So' Ld Ld' (eq_sym Rq)) with (r := r) as [r'' [C'' B]]; [| |exact C|].
  - intros q w Hr. destruct (no_imports_reach _ _ _ _ _ _ Nr Hr).
  - intros ld sc Mr. rewrite Sc. exists sc. split; [exact Mr|]. intros s Hs. rewrite Nr in Mr. cbn [merge_required] in Mr. injection Mr as <-.
    assert (Ep : {| pr_scope := pr_scope p; pr_sheet := pr_sheet p; pr_required := pr_required p |} = p) by (destruct p; reflexivity).
    assert (Ep' : {| pr_scope := pr_scope p; pr_sheet := pr_sheet p'; pr_required := pr_required p' |} = p') by (rewrite <- Sc; destruct p'; reflexivity). rewrite Ep, Ep' in *.
    destruct (main_eval (e_sheet E) (e_sched E) p args) as [q| | |] eqn:Hq; try discriminate Hs. cbn [omap] in Hs. injection Hs as <-.
    assert (N : plain_rows more -> exists q', main_eval (e_sheet E) (e_sched E) p' args = Ok q').
    { intros [N1 N2]. eapply append_text; eauto. destruct (has_multiple_infinite_expands (pr_sheet p')); [destruct N2; apply Ut; reflexivity|reflexivity]. }
    destruct (main_eval (e_sheet E) (e_sched E) p' args) as [q'|e| |] eqn:Hq'; cbn [omap].
    + eapply append_ok; eauto.
    + split; [intro Z; destruct (N Z) as [q' X]; discriminate X|]. destruct (append_err _ _ _ _ _ _ Or U Ua Sc Ap Fe Nb Nn _ Hq _ Hq') as [[H1 H2]|H]; [left|right; exact H].
      split; [exact H1|]. apply Ut. unfold eval_fills in H2. destruct Ap as [Fx _]. rewrite <- Fx, Fe in H2. destruct (has_multiple_infinite_expands (pr_sheet p')); [reflexivity|discriminate H2].
    + intro Z. destruct (N Z) as [q' X]. discriminate X.
    + intro Z. destruct (N Z) as [q' X]. discriminate X.
  - rewrite (no_imports_one E uc args name F' text' time' p' r' r'' No' So' Ld' ltac:(congruence) C' C''). destruct (both_ok _ _ _ _ _ _ _ B Em) as [o' [H D]]. specialize (H _ eq_refl). destruct o' as [s|e| |].
    + destruct D as [m' [-> <-]]. exact H.
    + rewrite D. destruct H as [N [[-> X]|[a [k [-> X]]]]]; (split; [exact N|]); [left; auto|right; exists a, k; auto].
    + rewrite D. exact H.
    + rewrite D. exact H.
Qed.
Print Assumptions C84_rows_at_the_end.

(** ** C85 *)
(** the same cells, row for row, or the same failure *)
Definition same_cells (r r' : outcome compile_error module) : Prop :=
  match r, r' with
  | Ok m, Ok m' => Forall2 same_contents (sheet_rows (module_sheet m)) (sheet_rows (module_sheet m'))
  | Err e, Err e' => e = e'
  | Panic, Panic | NoFuel, NoFuel => True
  | _, _ => False
  end.
Lemma write_pair E uc args name F F' text text' time time' p p' :
  sources F [name] = Some (text, time) -> no_object F [name] \/ older_object F [name] ->
  sources F' [name] = Some (text', time') -> no_object F' [name] \/ older_object F' [name] ->
  load_source (e_co E) text = Ok p -> load_source (e_co E) text' = Ok p' ->
  code_section (source_code_new text) = code_section (source_code_new text') -> written_out (pr_sheet p) (pr_sheet p') ->
  (forall q w, reachable (load_one E F uc) (as_main E name p) q w -> load_one E F uc q w = load_one E F' uc q w) ->
  forall r, compiles E uc args name F r -> exists r', compiles E uc args name F' r' /\ same_cells (fst r) (fst r').
Proof.
  intros So No So' No' Ld Ld' Cs Wo La r C.
  destruct (same_code _ _ _ _ _ Cs Ld Ld') as [Sc Rq]. pose proof (load_plain _ _ _ Ld) as [_ [_ Fe]].
  destruct (edit_main E uc args args name F F' text text' time time' p p' (fun o o' => omap sheet_contents o = omap sheet_contents o') No No' So So' Ld Ld' (eq_sym Rq) La) with (r := r) as [r' [C' B]]; [|exact C|].
  - intros ld sc Mr. rewrite Sc. exists sc. split; [exact Mr|].
    pose proof (write_out_eval (e_sheet E) (e_sched E) {| pr_scope := sc; pr_sheet := pr_sheet p; pr_required := pr_required p |} {| pr_scope := sc; pr_sheet := pr_sheet p'; pr_required := pr_required p' |} args eq_refl Wo Fe) as X.
    destruct (main_eval (e_sheet E) (e_sched E) {| pr_scope := sc; pr_sheet := pr_sheet p; pr_required := pr_required p |} args),
      (main_eval (e_sheet E) (e_sched E) {| pr_scope := sc; pr_sheet := pr_sheet p'; pr_required := pr_required p' |} args); cbn [omap] in *; congruence.
  - exists r'. split; [exact C'|]. destruct B as [[o [o' [H [D D']]]]|[N Eq]].
    + destruct o as [s|e| |], o' as [s'|e'| |]; cbn [omap] in H; try discriminate H; cbn [delivered] in *.
      * injection H as H. destruct (uc && negb (e_writable E [name])); [rewrite D, D'; reflexivity|]. destruct D as [m [-> <-]], D' as [m' [-> <-]]. cbn [same_cells].
        unfold sheet_contents in H. apply (map_eq_Forall2 _ _ bare_contents). exact H.
      * injection H as <-. rewrite D, D'. reflexivity.
      * rewrite D, D'. exact I.
      * rewrite D, D'. exact I.
    + rewrite <- Eq. destruct (fst r); [discriminate N|reflexivity|exact I..].
Qed.
(** A bounded fill is short for writing the row that many times: replacing a row that is filled [n] times (and has no names) by
    [n] copies of it without the fill gives the same cells with the same options, or fails with the same error. With imports: for
    every compilation of the first file there is such a compilation of the second. *)
Theorem C85_fill_written_out : forall E use_cache args name F F' text text' time time' p p',
  sources F [name] = Some (text, time) -> no_object F [name] \/ older_object F [name] ->
  sources F' [name] = Some (text', time') -> no_object F' [name] \/ older_object F' [name] ->
  same_elsewhere F F' name -> objects_in_place F -> main_not_imported E F use_cache name ->
  load_source (e_co E) text = Ok p -> load_source (e_co E) text' = Ok p' ->
  code_section (source_code_new text) = code_section (source_code_new text') -> written_out (pr_sheet p) (pr_sheet p') ->
  forall r, compiles E use_cache args name F r -> exists r', compiles E use_cache args name F' r' /\ same_cells (fst r) (fst r').
Proof.
  intros E uc args name F F' text text' time time' p p' So No So' No' Se Op Nm Ld Ld' Cs Wo.
  eapply write_pair; eauto. intros q w Hq. eapply load_elsewhere; [exact Se|exact Op|exact Nm| |exact Hq]. unfold load_from_source. rewrite So, Ld. reflexivity.
Qed.
Print Assumptions C85_fill_written_out.
Theorem C85_no_imports : forall E use_cache args name F F' text text' time time' p p',
  sources F [name] = Some (text, time) -> no_object F [name] \/ older_object F [name] ->
  sources F' [name] = Some (text', time') -> no_object F' [name] \/ older_object F' [name] ->
  load_source (e_co E) text = Ok p -> load_source (e_co E) text' = Ok p' -> pr_required p = [] ->
  code_section (source_code_new text) = code_section (source_code_new text') -> written_out (pr_sheet p) (pr_sheet p') ->
  forall r r', compiles E use_cache args name F r -> compiles E use_cache args name F' r' -> same_cells (fst r) (fst r').
Proof.
  intros E uc args name F F' text text' time time' p p' So No So' No' Ld Ld' Nr Cs Wo r r' C C'.
  destruct (same_code _ _ _ _ _ Cs Ld Ld') as [_ Rq].
  destruct (write_pair E uc args name F F' text text' time time' p p' So No So' No' Ld Ld' Cs Wo) with (r := r) as [r'' [C'' H]]; [|exact C|].
  - intros q w Hr. destruct (no_imports_reach _ _ _ _ _ _ Nr Hr).
  - rewrite (no_imports_one E uc args name F' text' time' p' r' r'' No' So' Ld' ltac:(congruence) C' C''). exact H.
Qed.
Print Assumptions C85_no_imports.
(** *** Examples *)
Definition ex_load (t : string) : program := match load_source ex_co (lit t) with Ok p => p | _ => ex_prog end.
Definition ex_one (t : string) : fs := ex_files [(["main"], t, 1)]%string.
Lemma at_nth {A} (l : list A) i a d : nth_error l i = Some a -> a = nth i l d.
Proof. revert i. induction l as [|b l IH]; intros [|i] H; try discriminate H; cbn [nth nth_error] in *; [congruence|]. apply IH. exact H. Qed.
Definition no_cell : cell := cell_default_from default_row {| f_address := {| addr_x := 0; addr_y := 0 |}; f_value := []; f_positions := [] |}.
Lemma but_check x r r' : row_options r = row_options r' -> row_fill r = row_fill r' -> row_var r = row_var r' -> length (row_cells r) = length (row_cells r') ->
  map cell_var (row_cells r) = map cell_var (row_cells r') ->
  (forall j, j < length (row_cells r) -> j <> x -> alike_cell (nth j (row_cells r) no_cell) (nth j (row_cells r') no_cell)) -> same_row_but x r r'.
Proof.
  intros H1 H2 H3 H4 H5 H6. do 4 (split; [assumption|]). intros j c c' Hc Hc'. split.
  - apply (f_equal (fun l => nth_error l j)) in H5. rewrite !nth_error_map, Hc, Hc' in H5. injection H5 as H5. exact H5.
  - intro N. rewrite (at_nth _ _ _ no_cell Hc), (at_nth _ _ _ no_cell Hc'). apply H6; [|exact N]. apply nth_error_Some. congruence.
Qed.
Lemma edited_check y x s s' : fills_expanded s = fills_expanded s' -> length (sheet_rows s) = length (sheet_rows s') ->
  (forall i, i < length (sheet_rows s) -> if i =? y then same_row_but x (nth i (sheet_rows s) default_row) (nth i (sheet_rows s') default_row)
     else alike_row (nth i (sheet_rows s) default_row) (nth i (sheet_rows s') default_row)) -> EditSpec.edited y x s s'.
Proof.
  intros H1 H2 H3. split; [exact H1|]. split; [exact H2|]. intros i r r' Hr Hr'. rewrite (at_nth _ _ _ default_row Hr), (at_nth _ _ _ default_row Hr'). apply H3. apply nth_error_Some. congruence.
Qed.
Definition names_of (r : row) : list str := match row_var r with Some x => [x] | None => [] end ++ flat_map (fun c => match cell_var c with Some x => [x] | None => [] end) (row_cells r).
Lemma named_in rs r x : In r rs -> named r x -> In x (flat_map names_of rs).
Proof.
  intros H N. apply in_flat_map. exists r. split; [exact H|]. unfold names_of. apply in_or_app. destruct N as [->|[c [Hc N]]]; [left; left; reflexivity|right].
  apply in_flat_map. exists c. split; [exact Hc|]. rewrite N. left. reflexivity.
Qed.
Lemma bounded_check rs : forallb (fun r => match row_fill r with Some f => match fill_amount f with None => false | Some _ => true end | None => true end) rs = true -> forall r, In r rs -> ~ unbounded r.
Proof. rewrite forallb_forall. intros H r Hr [f [U1 U2]]. specialize (H r Hr). rewrite U1, U2 in H. discriminate H. Qed.
Definition ex_code : string := "rate := 2" ++ nl ++ "fn id(a) a" ++ nl ++ "---" ++ nl.
Definition ex_table (formula : string) : string := ex_code ++ "Name,Total" ++ nl ++ "![[fill=2]]x," ++ formula ++ nl ++ "end,=rate".
Ltac cells := vm_compute; repeat (constructor || reflexivity).
Lemma ex_edited f : In f ["=rate + 7"; "=id()"; "none"]%string -> EditSpec.edited 1 1 (pr_sheet (ex_load (ex_table "=rate * 2"))) (pr_sheet (ex_load (ex_table f))).
Proof.
  intros [<-|[<-|[<-|[]]]]; (apply edited_check; [vm_compute; reflexivity|vm_compute; reflexivity|]);
    (intros i Hi; destruct i as [|[|[|i]]]; cbn [Nat.eqb]; [cells| |cells|exfalso; vm_compute in Hi; lia]);
    (apply but_check; try (vm_compute; reflexivity)); intros j Hj N; (destruct j as [|[|j]]; [cells|congruence|exfalso; vm_compute in Hj; lia]).
Qed.
(** a formula is changed, changed into one that does not evaluate, and replaced by text *)
Example C83_nonvacuous :
  (forall f, In f ["=rate * 2"; "=rate + 7"; "=id()"; "none"]%string -> load_source ex_co (lit (ex_table f)) = Ok (ex_load (ex_table f))
     /\ code_section (source_code_new (lit (ex_table f))) = Some (lit ("rate := 2" ++ nl ++ "fn id(a) a")))
  /\ (forall f, In f ["=rate + 7"; "=id()"; "none"]%string -> EditSpec.edited 1 1 (pr_sheet (ex_load (ex_table "=rate * 2"))) (pr_sheet (ex_load (ex_table f))))
  /\ is_copy_of (pr_sheet (ex_load (ex_table "=rate * 2"))) 1 2 /\ ~ is_copy_of (pr_sheet (ex_load (ex_table "=rate * 2"))) 1 3
  /\ no_formula_at (pr_sheet (ex_load (ex_table "none"))) 1 1
  /\ (exists F', yields (ex_E 5) true [] "main" (ex_one (ex_table "=rate * 2")) (Ok [[lit "Name"; lit "Total"]; [lit "x"; lit "=(2 * 2)"]; [lit "x"; lit "=(2 * 2)"]; [lit "end"; lit "=2"]]) F')
  /\ (exists F', yields (ex_E 5) true [] "main" (ex_one (ex_table "=rate + 7")) (Ok [[lit "Name"; lit "Total"]; [lit "x"; lit "=(2 + 7)"]; [lit "x"; lit "=(2 + 7)"]; [lit "end"; lit "=2"]]) F')
  /\ (exists k F', yields (ex_E 5) true [] "main" (ex_one (ex_table "=id()")) (Err (MainEval (CellEval {| addr_x := 1; addr_y := 1 |} k))) F').
Proof.
  split; [intros f [<-|[<-|[<-|[<-|[]]]]]; split; vm_compute; reflexivity|]. split; [exact ex_edited|].
  split; [eexists; split; [vm_compute; reflexivity|vm_compute; lia]|]. split; [intros [r [H [_ L]]]; apply (at_nth _ _ _ default_row) in H; subst r; revert L; apply Nat.nlt_ge; vm_compute; lia|].
  split; [intros r c H H'; apply (at_nth _ _ _ default_row) in H; subst r; apply (at_nth _ _ _ no_cell) in H'; subst c; vm_compute; reflexivity|].
  split; [eexists; apply (ex_run_yields _ _ _ _ _ false [["main"]]%string); vm_compute; reflexivity|].
  split; [eexists; apply (ex_run_yields _ _ _ _ _ false [["main"]]%string); vm_compute; reflexivity|].
  do 2 eexists; apply (ex_run_yields _ _ _ _ _ false [["main"]]%string); vm_compute; reflexivity.
Qed.
(** a row is added that uses a name of the sheet and defines one *)
Definition ex_short : string := ex_code ++ "[[var=first]]1,=first + rate" ++ nl ++ "![[fill=2]]x".
Definition ex_longer : string := ex_short ++ nl ++ "![[fill=2]][[var=second]]=first,=id(second)".
Definition ex_more : list row := skipn 2 (sheet_rows (pr_sheet (ex_load ex_longer))).
Example C84_nonvacuous :
  load_source ex_co (lit ex_short) = Ok (ex_load ex_short) /\ load_source ex_co (lit ex_longer) = Ok (ex_load ex_longer)
  /\ code_section (source_code_new (lit ex_short)) = code_section (source_code_new (lit ex_longer))
  /\ appended (pr_sheet (ex_load ex_short)) (pr_sheet (ex_load ex_longer)) ex_more
  /\ (forall r, In r (sheet_rows (pr_sheet (ex_load ex_short))) -> ~ unbounded r)
  /\ (forall r x, In r ex_more -> named r x -> ~ reads_name (ex_load ex_short) [] x /\ ~ place_name x)
  /\ (exists r, In r ex_more /\ named r (lit "second"))
  /\ (exists F', yields (ex_E 5) true [] "main" (ex_one ex_short) (Ok [[lit "1"; lit "=(A1 + 2)"]; [lit "x"]; [lit "x"]]) F')
  /\ (exists F', yields (ex_E 5) true [] "main" (ex_one ex_longer) (Ok [[lit "1"; lit "=(A1 + 2)"]; [lit "x"]; [lit "x"]; [lit "=A1"; lit "=A4"]; [lit "=A1"; lit "=A5"]]) F').
Proof.
  split; [vm_compute; reflexivity|]. split; [vm_compute; reflexivity|]. split; [vm_compute; reflexivity|]. split; [|split; [|split; [|split; [|split]]]].
  - split; [vm_compute; reflexivity|]. exists (firstn 2 (sheet_rows (pr_sheet (ex_load ex_longer)))). split; [symmetry; apply firstn_skipn|]. cells.
  - apply bounded_check. vm_compute. reflexivity.
  - intros r x H N. assert (X : x = lit "second").
    { pose proof (named_in _ _ _ H N) as X. assert (Y : flat_map names_of ex_more = [lit "second"]) by (vm_compute; reflexivity). rewrite Y in X. destruct X as [X|[]]. symmetry. exact X. }
    subst x. split; [apply not_read; vm_compute; reflexivity|]. eapply not_place; [vm_compute; reflexivity|reflexivity].
  - exists (nth 0 ex_more default_row). split; [vm_compute; left; reflexivity|]. right. exists (nth 0 (row_cells (nth 0 ex_more default_row)) no_cell). split; [vm_compute; left; reflexivity|]. vm_compute. reflexivity.
  - eexists; apply (ex_run_yields _ _ _ _ _ false [["main"]]%string); vm_compute; reflexivity.
  - eexists; apply (ex_run_yields _ _ _ _ _ false [["main"]]%string); vm_compute; reflexivity.
Qed.
(** Without the conditions it is not so: a row below a fill without a bound takes the place of its last copy, *)
Theorem C84_unbounded_refuted : exists o o' F F',
  yields (ex_E 5) true [] "main" (ex_one "![[fill]]x") (Ok o) F /\ nth_error o 999 = Some [lit "x"]
  /\ yields (ex_E 5) true [] "main" (ex_one ("![[fill]]x" ++ nl ++ "y")) (Ok o') F' /\ nth_error o' 999 = Some [lit "y"].
Proof.
  do 4 eexists. split; [apply (ex_run_yields _ _ _ _ _ false [["main"]]%string); vm_compute; reflexivity|]. split; [vm_compute; reflexivity|].
  split; [apply (ex_run_yields _ _ _ _ _ false [["main"]]%string); vm_compute; reflexivity|]. vm_compute. reflexivity.
Qed.
Print Assumptions C84_unbounded_refuted.
(** and a row that defines a name gives the cells above that read it another meaning. *)
Theorem C84_name_refuted :
  (exists F, yields (ex_E 5) true [] "main" (ex_one "=total") (Ok [[lit "=total"]]) F)
  /\ (exists F, yields (ex_E 5) true [] "main" (ex_one ("=total" ++ nl ++ "[[var=total]]5")) (Ok [[lit "=A2"]; [lit "5"]]) F).
Proof. split; eexists; apply (ex_run_yields _ _ _ _ _ false [["main"]]%string); vm_compute; reflexivity. Qed.
Print Assumptions C84_name_refuted.
(** a row filled three times, and the same row three times *)
Definition ex_filled : string := ex_code ++ "[[var=top]]1" ++ nl ++ "![[fill=3/text=bold]]a,=top + rate" ++ nl ++ "[[var=z]]z,=z".
Definition ex_written : string := ex_code ++ "[[var=top]]1" ++ nl ++ "![[text=bold]]a,=top + rate" ++ nl ++ "![[text=bold]]a,=top + rate" ++ nl ++ "![[text=bold]]a,=top + rate" ++ nl ++ "[[var=z]]z,=z".
Example C85_nonvacuous :
  load_source ex_co (lit ex_filled) = Ok (ex_load ex_filled) /\ load_source ex_co (lit ex_written) = Ok (ex_load ex_written)
  /\ code_section (source_code_new (lit ex_filled)) = code_section (source_code_new (lit ex_written))
  /\ written_out (pr_sheet (ex_load ex_filled)) (pr_sheet (ex_load ex_written))
  /\ (forall t, In t [ex_filled; ex_written] -> exists F', yields (ex_E 5) true [] "main" (ex_one t)
        (Ok [[lit "1"]; [lit "a"; lit "=(A1 + 2)"]; [lit "a"; lit "=(A1 + 2)"]; [lit "a"; lit "=(A1 + 2)"]; [lit "z"; lit "=A5"]]) F').
Proof.
  split; [vm_compute; reflexivity|]. split; [vm_compute; reflexivity|]. split; [vm_compute; reflexivity|]. split.
  - set (rs := sheet_rows (pr_sheet (ex_load ex_filled))). exists (firstn 1 rs), (nth 1 rs default_row), (skipn 2 rs), 3. eexists. split; [|split; [|split; [|split]]].
    + intros x N. pose proof (named_in [nth 1 rs default_row] _ x (or_introl eq_refl) N) as X. assert (Y : flat_map names_of [nth 1 rs default_row] = []) by (vm_compute; reflexivity). rewrite Y in X. destruct X.
    + vm_compute. reflexivity.
    + vm_compute. reflexivity.
    + vm_compute. reflexivity.
    + cells.
  - intros t [<-|[<-|[]]]; eexists; apply (ex_run_yields _ _ _ _ _ false [["main"]]%string); vm_compute; reflexivity.
Qed.
(** With a name it is not so: the name of a cell in a filled row stands for all its copies. *)
Theorem C85_named_refuted :
  (exists F, yields (ex_E 5) true [] "main" (ex_one ("![[fill=2]][[var=x]]1" ++ nl ++ "=x")) (Ok [[lit "1"]; [lit "1"]; [lit "=A1:A2"]]) F)
  /\ (exists F, yields (ex_E 5) true [] "main" (ex_one ("[[var=x]]1" ++ nl ++ "[[var=x]]1" ++ nl ++ "=x")) (Ok [[lit "1"]; [lit "1"]; [lit "=A2"]]) F).
Proof. split; eexists; apply (ex_run_yields _ _ _ _ _ false [["main"]]%string); vm_compute; reflexivity. Qed.
Print Assumptions C85_named_refuted.
