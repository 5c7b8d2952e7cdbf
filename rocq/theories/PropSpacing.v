(** * PropSpacing: spaces, line breaks and comments between words do not matter (C89). *)
From Verif Require Import Base BaseProofs Csvp SourceCode SourceSpec Ast AstProofs AstLexer AstParser AstLexerProofs AstParserProofs FormulaText CodeSectionProofs Eval EvalSpec FormulaSpec Options CellParser CellSpec CellProofs9 CodeSectionSpec CompileSpec
  Sheet SheetSpec SheetProofs2 Loader LoaderSpec PropCell PropSheet PropVariables PropLoader PropCache PropModules PropCompile SameSpec SameProofs CellAlike SameLoad PropSame EditLoad PropEdit RenameSpec RenameProofs PropRename SpacingSpec SpacingProofs.

(** both texts give the same, or are rejected with the same message about the same text (the positions may differ) *)
Definition same_reading {A} (r r' : outcome parse_error A) : Prop :=
  match r, r' with
  | Ok a, Ok a' => a' = a
  | Err e, Err e' => pe_kind e' = pe_kind e /\ pe_saw e' = pe_saw e /\ pe_eof e' = pe_eof e
  | _, _ => False
  end.
Lemma located_alike {A} lx lx' (r : outcome perr A) : erase (lx_tokens lx) = erase (lx_tokens lx') -> is_ok r = true \/ (exists e, r = Err e) -> same_reading (locate lx r) (locate lx' r).
Proof.
  intros E H. destruct r as [a|e| |]; [reflexivity| |destruct H as [H|[e H]]; discriminate H..]. cbn [locate same_reading]. unfold error_token.
  assert (L : length (lx_tokens lx) = length (lx_tokens lx')) by (apply (f_equal (@length _)) in E; unfold erase in E; rewrite !map_length in E; exact E). rewrite <- L.
  set (i := length (lx_tokens lx) - AstParser.e_left e). assert (N : nth_error (erase (lx_tokens lx)) i = nth_error (erase (lx_tokens lx')) i) by congruence. unfold erase in N. rewrite !nth_error_map in N.
  destruct (nth_error (lx_tokens lx) i) as [t|], (nth_error (lx_tokens lx') i) as [t'|]; cbn [option_map] in N; try discriminate N; [|auto]. apply (f_equal (fun x => match x with Some y => snd y | None => [] end)) in N. cbn [snd] in N. cbn [pe_kind pe_saw pe_eof]. rewrite N. auto.
Qed.
(** A formula means the same however its words are spaced. *)
Theorem C89_formula : forall o single ws text text', spells (o_unicode o) ws text -> spells (o_unicode o) ws text' ->
  same_reading (ast_parse o single (c_eq :: text)) (ast_parse o single (c_eq :: text')).
Proof.
  intros o sg ws text text' H H'. apply spells_read in H, H'.
  destruct (ast_lex_complete (o_unicode o) (c_eq :: text) _ H) as [lx [E1 E2]]. destruct (ast_lex_complete (o_unicode o) (c_eq :: text') _ H') as [lx' [E1' E2']].
  unfold ast_parse. rewrite E1, E1', E2, E2'. apply located_alike; [congruence|]. unfold parser_fuel.
  pose proof (proj1 (parser_total o sg (2 * length (map word_tok ws) + 2)) 0 (map word_tok ws) ltac:(lia)) as T.
  destruct (expr_bp _ o sg 0 (map word_tok ws)) as [[e r]|e| |]; cbn [bind is_ok]; [left; reflexivity|right; eauto|destruct T..].
Qed.
Print Assumptions C89_formula.
(** A code section defines the same however its words are spaced and spread over lines. *)
Theorem C89_code_section : forall o ws text text', spells (o_unicode o) ws text -> spells (o_unicode o) ws text' ->
  begins_with (fun c => c =? c_eq)%N text = false -> begins_with (fun c => c =? c_eq)%N text' = false ->
  same_reading (code_section_parse o text) (code_section_parse o text').
Proof.
  intros o ws text text' H H' N N'. apply spells_read in H, H'.
  assert (Ft : forall t, begins_with (fun c => c =? c_eq)%N t = false -> formula_text t = t).
  { intros [|c t] Hc; [reflexivity|]. cbn [begins_with] in Hc. unfold formula_text. rewrite strip_eq_none; [reflexivity|]. apply N.eqb_neq. exact Hc. }
  rewrite <- (Ft _ N) in H. rewrite <- (Ft _ N') in H'.
  destruct (ast_lex_complete (o_unicode o) text _ H) as [lx [E1 E2]]. destruct (ast_lex_complete (o_unicode o) text' _ H') as [lx' [E1' E2']].
  unfold code_section_parse. rewrite E1, E1', E2, E2'. apply located_alike; [congruence|].
  destruct (parse_scope_total o (S (length (map word_tok ws))) (map word_tok ws) empty_scope []) as [[x ->]|[e ->]]; [lia|left; reflexivity|right; eauto].
Qed.
Print Assumptions C89_code_section.

(** ** Whole files *)
(** the same cell, up to the spacing of its formula *)
Definition respaced_field (u : unicode) (f f' : field) : Prop :=
  same_place f f' \/
  (f_address f' = f_address f /\ exists ws t t', f_value f = c_eq :: t /\ f_value f' = c_eq :: t' /\ spells u ws t /\ spells u ws t').
Definition sheet_fields (text : str) : outcome csvp_error (list (list field)) :=
  csvp_parse {| separator := c_comma; lines_above := length_of_code_section (source_code_new text) |} (csv_section (source_code_new text)).
(** the same file, up to the spacing of the code section and of the formulas in cells *)
Definition respaced_file (u : unicode) (text text' : str) : Prop :=
  match code_section (source_code_new text), code_section (source_code_new text') with
  | None, None => True
  | Some c, Some c' => c = c' \/ begins_with (fun c => c =? c_eq)%N c = false /\ begins_with (fun c => c =? c_eq)%N c' = false /\ exists ws, spells u ws c /\ spells u ws c'
  | _, _ => False
  end
  /\ exists rs rs', sheet_fields text = Ok rs /\ sheet_fields text' = Ok rs' /\ Forall2 (Forall2 (respaced_field u)) rs rs'.
Lemma alike_renamed c c' : alike_cell c c' -> renamed_cell same_names c c'.
Proof.
  intros [A [B [C D]]]. unfold renamed_cell. rewrite <- A, <- B, <- C, <- D. split; [destruct (cell_ast c); cbn [option_map]; [rewrite rename_same|]; reflexivity|]. split; [reflexivity|]. split; [reflexivity|].
  destruct (cell_var c); reflexivity.
Qed.
Lemma formula_no_list t : no_list (c_eq :: t).
Proof. split; intros [r H]; discriminate H. Qed.
Lemma cell_respaced co f f' r c w : trim (f_value f) = f_value f -> trim (f_value f') = f_value f' -> respaced_field (o_unicode (co_oracle co)) f f' -> cell_parse co f r = Ok (c, w) -> exists c', cell_parse co f' r = Ok (c', w) /\ renamed_cell same_names c c'.
Proof.
  intros Tr Tr' [H|[Ha [ws [t [t' [Ev [Ev' [Hs Hs']]]]]]]] P.
  - destruct (cell_parse_alike co f f' H r c w P) as [c' [P' A]]. exists c'. split; [exact P'|apply alike_renamed; exact A].
  - pose proof (C89_formula (co_oracle co) false ws t t' Hs Hs') as R. unfold cell_parse in *.
    rewrite parse_cell_plain in P by (rewrite Ev; apply formula_no_list). rewrite parse_cell_plain by (rewrite Ev'; apply formula_no_list). cbn [at_address bind] in *.
    change (parsed_value (cell_after f [] (f_value f) r)) with (trim (f_value f)) in P. change (parsed_value (cell_after f' [] (f_value f') r)) with (trim (f_value f')). rewrite Tr in P. rewrite Tr'.
    unfold parse_formula in *. rewrite Ev in P. rewrite Ev'. change (starts_with [c_eq] (c_eq :: t)) with true in P. change (starts_with [c_eq] (c_eq :: t')) with true. cbv iota in *.
    destruct (ast_parse (co_oracle co) false (c_eq :: t)) as [n| | |]; try discriminate P. destruct (ast_parse (co_oracle co) false (c_eq :: t')) as [n'| | |]; cbn [same_reading] in R; try contradiction. subst n'.
    cbn [bind] in *. injection P as <- <-. eexists. split; [reflexivity|]. unfold renamed_cell. cbn [cell_ast parsed_value cell_options cell_var cell_after option_map]. rewrite rename_same.
    split; [reflexivity|]. split; [intro X; discriminate X|]. split; reflexivity.
Qed.
Lemma row_respaced co fs fs' r : (forall f, In f fs -> trim (f_value f) = f_value f) -> (forall f, In f fs' -> trim (f_value f) = f_value f) -> Forall2 (respaced_field (o_unicode (co_oracle co))) fs fs' -> row_parse co fs = Ok r -> exists r', row_parse co fs' = Ok r' /\ renamed_row same_names r r'.
Proof.
  intros Tr Tr' H P. unfold row_parse in *.
  assert (X : forall w cs w1, row_parse_cells co fs w = Ok (cs, w1) -> exists cs', row_parse_cells co fs' w = Ok (cs', w1) /\ Forall2 (renamed_cell same_names) cs cs').
  { clear P. induction H as [|f f' fs fs' Hf _ IH]; intros v cs w1 P; cbn [row_parse_cells] in *; [injection P as <- <-; eexists; split; [reflexivity|constructor]|].
    destruct (cell_parse co f v) as [[c v1]| | |] eqn:E1; try discriminate P. cbn [bind] in P. destruct (cell_respaced co f f' v c v1 (Tr _ (or_introl eq_refl)) (Tr' _ (or_introl eq_refl)) Hf E1) as [c' [-> A]]. cbn [bind].
    destruct (row_parse_cells co fs v1) as [[cs1 v2]| | |] eqn:E2; try discriminate P. cbn [bind] in P. injection P as <- <-. destruct (IH (fun x J => Tr x (or_intror J)) (fun x J => Tr' x (or_intror J)) _ _ _ E2) as [cs' [-> B]]. cbn [bind]. eexists. split; [reflexivity|]. constructor; assumption. }
  destruct (row_parse_cells co fs default_row) as [[cs w]| | |] eqn:E1; try discriminate P. cbn [bind] in P. injection P as <-. destruct (X _ _ _ E1) as [cs' [-> B]]. cbn [bind].
  eexists. split; [reflexivity|]. unfold renamed_row. cbn [row_options row_fill row_var row_cells]. split; [reflexivity|]. split; [reflexivity|]. split; [destruct (row_var w); reflexivity|exact B].
Qed.
Lemma load_respaced co text text' p : respaced_file (o_unicode (co_oracle co)) text text' -> load_source co text = Ok p ->
  exists p', load_source co text' = Ok p' /\ pr_scope p' = pr_scope p /\ pr_required p' = pr_required p /\ renamed_sheet same_names (pr_sheet p) (pr_sheet p').
Proof.
  intros [Hc [rs [rs' [Hr [Hr' Hf]]]]] Ld. unfold load_source in *. cbv zeta in *. unfold sheet_parse in *. unfold sheet_fields in Hr, Hr'. rewrite Hr in Ld. rewrite Hr'. cbn [bind] in *.
  assert (Tr : forall fs f, In fs rs -> In f fs -> trim (f_value f) = f_value f).
  { intros fs f I1 I2. apply In_nth_error in I1 as [y I1]. destruct (csvp_trimmed _ _ _ _ _ _ Hr I1 I2) as [raw ->]. apply trim_idem. }
  assert (Tr' : forall fs f, In fs rs' -> In f fs -> trim (f_value f) = f_value f).
  { intros fs f I1 I2. apply In_nth_error in I1 as [y I1]. destruct (csvp_trimmed _ _ _ _ _ _ Hr' I1 I2) as [raw ->]. apply trim_idem. }
  assert (Rows : forall rows, parse_rows co rs = Ok rows -> exists rows', parse_rows co rs' = Ok rows' /\ Forall2 (renamed_row same_names) rows rows').
  { clear -Hf Tr Tr'. induction Hf as [|fs fs' rs rs' Hf _ IH]; intros rows P; cbn [parse_rows] in *; [injection P as <-; eexists; split; [reflexivity|constructor]|].
    destruct (row_parse co fs) as [r| | |] eqn:E1; try discriminate P. cbn [bind] in P. destruct (row_respaced co fs fs' r (fun f => Tr _ f (or_introl eq_refl)) (fun f => Tr' _ f (or_introl eq_refl)) Hf E1) as [r' [-> A]]. cbn [bind].
    destruct (parse_rows co rs) as [rows1| | |]; try discriminate P. cbn [bind] in P. injection P as <-. destruct (IH (fun x f J => Tr x f (or_intror J)) (fun x f J => Tr' x f (or_intror J)) _ eq_refl) as [rows' [-> B]]. cbn [bind]. eexists. split; [reflexivity|]. constructor; assumption. }
  assert (Fin : forall sc req, (do sheet <- (do rows <- parse_rows co rs; Ok {| sheet_rows := rows; fills_expanded := false |}); Ok {| pr_scope := sc; pr_sheet := sheet; pr_required := req |}) = Ok p ->
    exists p', (do sheet <- (do rows <- parse_rows co rs'; Ok {| sheet_rows := rows; fills_expanded := false |}); Ok {| pr_scope := sc; pr_sheet := sheet; pr_required := req |}) = Ok p'
      /\ pr_scope p' = pr_scope p /\ pr_required p' = pr_required p /\ renamed_sheet same_names (pr_sheet p) (pr_sheet p')).
  { intros sc req X. destruct (parse_rows co rs) as [rows| | |]; cbn [bind] in X; try discriminate X. injection X as <-. destruct (Rows _ eq_refl) as [rows' [-> B]]. cbn [bind]. eexists. split; [reflexivity|]. cbn [pr_scope pr_required pr_sheet]. repeat split. exact B. }
  destruct (code_section (source_code_new text)) as [c|], (code_section (source_code_new text')) as [c'|]; try contradiction; [|cbn [bind] in *; apply Fin; exact Ld].
  destruct Hc as [<-|[N [N' [ws [Hs Hs']]]]].
  - destruct (code_section_parse (co_oracle co) c) as [[sc req]| | |]; cbn [bind] in *; try discriminate Ld. apply Fin. exact Ld.
  - pose proof (C89_code_section (co_oracle co) ws c c' Hs Hs' N N') as R. destruct (code_section_parse (co_oracle co) c) as [[sc req]| | |]; cbn [bind] in Ld; try discriminate Ld.
    destruct (code_section_parse (co_oracle co) c') as [x'| | |]; cbn [same_reading] in R; try contradiction. subst x'. cbn [bind]. apply Fin. exact Ld.
Qed.

(** the same output: the same text, formula and options in every cell, or the same error *)
Definition same_output (r r' : outcome compile_error module) : Prop :=
  match r, r' with
  | Ok m, Ok m' => sheet_texts (module_sheet m') = sheet_texts (module_sheet m)
      /\ Forall2 (fun w w' => row_options w' = row_options w /\ Forall2 (fun c c' => cell_options c' = cell_options c /\ cell_ast c' = cell_ast c /\ cell_var c' = cell_var c) (row_cells w) (row_cells w'))
           (sheet_rows (module_sheet m)) (sheet_rows (module_sheet m'))
  | Err e, Err e' => e' = e
  | Panic, Panic | NoFuel, NoFuel => True
  | _, _ => False
  end.
Lemma renamed_output m m' : renamed_sheet same_names (module_sheet m) (module_sheet m') -> same_output (Ok m) (Ok m').
Proof.
  intro H. split; [apply (C87_same_texts same_names); [exact H|intros; apply rename_same]|]. destruct H as [_ H]. induction H as [|w w' l l' H _ IH]; constructor; [|exact IH].
  destruct H as [H1 [_ [_ H2]]]. split; [exact H1|]. clear -H2. induction H2 as [|c c' l l' H _ IH]; constructor; [|exact IH]. destruct H as [A [_ [C D]]]. split; [exact C|]. split; [rewrite A|rewrite D]; [destruct (cell_ast c)|destruct (cell_var c)]; cbn [option_map]; rewrite ?rename_same; reflexivity.
Qed.
(** Files that differ in spacing only compile to the same output, also with imports: whatever compiling the one yields, compiling the other
    can yield too. (No imported module may import the file itself.) *)
Theorem C89_file : forall E use_cache kvs args name F F' text text' time time' p,
  parse_key_values (co_oracle (e_co E)) kvs [] = Ok args ->
  sources F [name] = Some (text, time) -> no_object F [name] \/ older_object F [name] ->
  sources F' [name] = Some (text', time') -> no_object F' [name] \/ older_object F' [name] ->
  same_elsewhere F F' name -> objects_in_place F -> main_not_imported E F use_cache name ->
  load_source (e_co E) text = Ok p -> respaced_file (o_unicode (co_oracle (e_co E))) text text' ->
  forall r, compiles E use_cache args name F r -> exists r', compiles E use_cache args name F' r' /\ same_output (fst r) (fst r').
Proof.
  intros E uc kvs args name F F' text text' time time' p K So No So' No' Se Op Nm Ld Hf r C.
  destruct (load_respaced (e_co E) text text' p Hf Ld) as [p' [Ld' [Sc [Rq Rs]]]].
  pose proof (load_source_unique _ _ _ Ld) as U. assert (Ua : NoDup (map fst args)) by (eapply key_values_unique; [|exact K]; constructor).
  destruct (edit_main E uc args args name F F' text text' time time' p p'
    (fun o o' => rmap (ren_sheet same_names) (fun e => e) o' = rmap (ren_sheet same_names) (ren_error same_names) o) No No' So So' Ld Ld' (eq_sym Rq)) with (r := r) as [r' [C' Bo]].
  - intros q w Hq. eapply load_elsewhere; [exact Se|exact Op|exact Nm| |exact Hq]. unfold load_from_source. rewrite So, Ld. reflexivity.
  - intros ld sc Mr. exists sc. split; [rewrite Sc; exact Mr|].
    assert (Us : same_scope (pr_scope p) (pr_scope p)) by (split; reflexivity).
    destruct (merge_required_same _ _ _ _ _ Us U U Mr) as [sc' [Mr' [_ [[_ V] _]]]].
    apply (main_renamed same_names (fun x => x) (fun x => x)); auto; try reflexivity.
    + split; [reflexivity|]. intro a. split; intros k l; cbn [same_names rn_value rn_fn]; rewrite !map_id; reflexivity.
    + split; [apply definitions_same|]. split; [apply definitions_same|]. exact Rs.
    + apply definitions_same.
  - exact C.
  - exists r'. split; [exact C'|]. destruct Bo as [[o [o' [Q [D D']]]]|[N1 N2]].
    + unfold delivered in D, D'. destruct o as [s|e| |], o' as [s'|e'| |]; cbn [rmap] in Q; try discriminate Q.
      * destruct (uc && negb (e_writable E [name])); [rewrite D, D'; reflexivity|]. destruct D as [m1 [-> <-]], D' as [m2 [-> <-]]. apply renamed_output. apply sheets_renamed. congruence.
      * rewrite D, D'. cbn [same_output]. rewrite error_same in Q. congruence.
      * rewrite D, D'. exact I.
      * rewrite D, D'. exact I.
    + rewrite <- N2. destruct (fst r); [discriminate N1|reflexivity|exact I..].
Qed.
Print Assumptions C89_file.
(** without imports there is only one outcome *)
Theorem C89_no_imports : forall E use_cache kvs args name F F' text text' time time' p,
  parse_key_values (co_oracle (e_co E)) kvs [] = Ok args ->
  sources F [name] = Some (text, time) -> no_object F [name] \/ older_object F [name] ->
  sources F' [name] = Some (text', time') -> no_object F' [name] \/ older_object F' [name] ->
  load_source (e_co E) text = Ok p -> pr_required p = [] -> respaced_file (o_unicode (co_oracle (e_co E))) text text' ->
  forall r r', compiles E use_cache args name F r -> compiles E use_cache args name F' r' -> same_output (fst r) (fst r').
Proof.
  intros E uc kvs args name F F' text text' time time' p K So No So' No' Ld Rq0 Hf r r1 C C1.
  destruct (load_respaced (e_co E) text text' p Hf Ld) as [p' [Ld' [Sc [Rq Rs]]]].
  pose proof (load_source_unique _ _ _ Ld) as U. assert (Ua : NoDup (map fst args)) by (eapply key_values_unique; [|exact K]; constructor).
  destruct (edit_main E uc args args name F F' text text' time time' p p'
    (fun o o' => rmap (ren_sheet same_names) (fun e => e) o' = rmap (ren_sheet same_names) (ren_error same_names) o) No No' So So' Ld Ld' (eq_sym Rq)) with (r := r) as [r' [C' Bo]].
  - intros q w H. destruct (no_imports_reach _ _ _ _ _ _ Rq0 H).
  - intros ld sc Mr. exists sc. split; [rewrite Sc; exact Mr|].
    assert (Us : same_scope (pr_scope p) (pr_scope p)) by (split; reflexivity).
    destruct (merge_required_same _ _ _ _ _ Us U U Mr) as [sc' [Mr' [_ [[_ V] _]]]].
    apply (main_renamed same_names (fun x => x) (fun x => x)); auto; try reflexivity.
    + split; [reflexivity|]. intro a. split; intros k l; cbn [same_names rn_value rn_fn]; rewrite !map_id; reflexivity.
    + split; [apply definitions_same|]. split; [apply definitions_same|]. exact Rs.
    + apply definitions_same.
  - exact C.
  - rewrite (no_imports_one E uc args name F' _ time' p' r1 r' No' So' Ld' ltac:(congruence) C1 C'). destruct Bo as [[o [o' [Q [D D']]]]|[N1 N2]].
    + unfold delivered in D, D'. destruct o as [s|e| |], o' as [s'|e'| |]; cbn [rmap] in Q; try discriminate Q.
      * destruct (uc && negb (e_writable E [name])); [rewrite D, D'; reflexivity|]. destruct D as [m1 [-> <-]], D' as [m2 [-> <-]]. apply renamed_output. apply sheets_renamed. congruence.
      * rewrite D, D'. cbn [same_output]. rewrite error_same in Q. congruence.
      * rewrite D, D'. exact I.
      * rewrite D, D'. exact I.
    + rewrite <- N2. destruct (fst r); [discriminate N1|reflexivity|exact I..].
Qed.
Print Assumptions C89_no_imports.

(** ** Examples *)
Fixpoint space_b (comment : bool) (g : str) : bool :=
  match g with
  | [] => negb comment
  | c :: r => if comment then space_b (negb (c =? c_nl)%N) r else if (c =? c_hash)%N then space_b true r else is_ws c && negb (c =? c_cr)%N && space_b false r
  end.
Lemma space_b_sound : forall g, space_b false g = true -> space g.
Proof.
  assert (X : forall g, (space_b false g = true -> space g) /\ (space_b true g = true -> exists t r, g = t ++ c_nl :: r /\ ~ In c_nl t /\ space r)).
  { induction g as [|c g [IH1 IH2]]; [split; [constructor|discriminate]|]. cbn [space_b]. split.
    - destruct (N.eqb_spec c c_hash) as [->|_]; intro H.
      + destruct (IH2 H) as [t [r [-> [A B]]]]. apply sp_comment; assumption.
      + apply andb_prop in H as [H1 H2]. apply andb_prop in H1 as [H1 H3]. apply sp_char; [exact H1| |apply IH1; exact H2]. intros ->. discriminate H3.
    - destruct (N.eqb_spec c c_nl) as [->|N]; cbn [negb]; intro H.
      + exists [], g. split; [reflexivity|]. split; [intros []|apply IH1; exact H].
      + destruct (IH2 H) as [t [r [-> [A B]]]]. exists (c :: t), r. split; [reflexivity|]. split; [|exact B]. intros [J|J]; [exact (N J)|exact (A J)]. }
  intros g H. apply (proj1 (X g) H).
Qed.
Ltac a_word := cbn [word_ok ends_before]; repeat match goal with
  | |- True => exact I
  | |- _ /\ _ => split
  | |- space _ => apply space_b_sound; vm_compute; reflexivity
  | |- _ <> _ => discriminate
  | |- In _ _ => vm_compute; auto 20
  | |- _ -> _ => intro; vm_compute; reflexivity
  | |- last_comment _ => left; reflexivity
  | |- _ = _ => vm_compute; reflexivity
  end.
Ltac a_text g l e := exists g, l, e; split; [vm_compute; reflexivity|]; split; [apply space_b_sound; vm_compute; reflexivity|]; split; [cbn [well_spaced]; a_word|vm_compute; reflexivity].
Definition ex_words : list word := [WName (lit "add"); WOpen; WInt (lit "1"); WComma; WName (lit "rate"); WClose; WOp (lit "<>"); WText (lit "a b")].
Lemma ex_tight : spells (o_unicode (co_oracle ex_co)) ex_words (lit "add(1,rate)<>""a b""").
Proof. a_text (@nil N) [(WName (lit "add"), []); (WOpen, []); (WInt (lit "1"), []); (WComma, []); (WName (lit "rate"), []); (WClose, []); (WOp (lit "<>"), []); (WText (lit "a b"), @nil N)] (@nil N). Qed.
Lemma ex_wide : spells (o_unicode (co_oracle ex_co)) ex_words (lit (" add (  1 ,# the rate" ++ nl ++ "rate) <> ""a b""")).
Proof. a_text (lit " ") [(WName (lit "add"), lit " "); (WOpen, lit "  "); (WInt (lit "1"), lit " "); (WComma, lit ("# the rate" ++ nl)); (WName (lit "rate"), []); (WClose, lit " "); (WOp (lit "<>"), lit " "); (WText (lit "a b"), @nil N)] (@nil N). Qed.
Definition ex_defs_words : list word := [WName (lit "rate"); WAssign; WInt (lit "5"); WOp (lit "%"); WFn; WName (lit "add"); WOpen; WName (lit "a"); WComma; WName (lit "b"); WClose; WName (lit "a"); WOp (lit "+"); WName (lit "b")].
Definition ex_defs_tight : string := "rate :=5%fn add(a,b)a+b".
Definition ex_defs_wide : string := "# rates" ++ nl ++ "rate := 5 %" ++ nl ++ nl ++ "fn add(a, # one" ++ nl ++ "       b)" ++ nl ++ "  a + b".
Lemma ex_defs_spell : spells (o_unicode (co_oracle ex_co)) ex_defs_words (lit ex_defs_tight) /\ spells (o_unicode (co_oracle ex_co)) ex_defs_words (lit ex_defs_wide).
Proof.
  split.
  - a_text (@nil N) [(WName (lit "rate"), lit " "); (WAssign, []); (WInt (lit "5"), []); (WOp (lit "%"), []); (WFn, lit " "); (WName (lit "add"), []); (WOpen, []); (WName (lit "a"), []); (WComma, []); (WName (lit "b"), []); (WClose, []); (WName (lit "a"), []); (WOp (lit "+"), []); (WName (lit "b"), @nil N)] (@nil N).
  - a_text (lit ("# rates" ++ nl)) [(WName (lit "rate"), lit " "); (WAssign, lit " "); (WInt (lit "5"), lit " "); (WOp (lit "%"), lit (nl ++ nl)); (WFn, lit " "); (WName (lit "add"), []); (WOpen, []); (WName (lit "a"), []); (WComma, lit (" # one" ++ nl ++ "       ")); (WName (lit "b"), []); (WClose, lit (nl ++ "  ")); (WName (lit "a"), lit " "); (WOp (lit "+"), lit " "); (WName (lit "b"), @nil N)] (@nil N).
Qed.
Definition ex_cell1 : string := "=add(1,rate)<>""""a b""""".
Definition ex_tight_file : string := ex_defs_tight ++ nl ++ "---" ++ nl ++ "[[var=x]]3,=rate,""" ++ ex_cell1 ++ """,end".
Definition ex_wide_file : string := ex_defs_wide ++ nl ++ "---" ++ nl ++ "[[var=x]]3, = rate ,"" = add (  1 ,# the rate" ++ nl ++ "rate) <> """"a b"""""" , end".
Definition ex_fields (t : string) : list (list field) := match sheet_fields (lit t) with Ok rs => rs | _ => [] end.
Example C89_nonvacuous :
  load_source ex_co (lit ex_tight_file) = Ok (ex_load ex_tight_file) /\ pr_required (ex_load ex_tight_file) = []
  /\ respaced_file (o_unicode (co_oracle ex_co)) (lit ex_tight_file) (lit ex_wide_file)
  /\ (forall t, In t [ex_tight_file; ex_wide_file] -> exists F', yields (ex_E 5) true [] "main" (ex_one t) (Ok [[lit "3"; lit "=5%"; lit "=((1 + 5%) <> ""a b"")"; lit "end"]]) F').
Proof.
  split; [vm_compute; reflexivity|]. split; [vm_compute; reflexivity|]. split.
  - unfold respaced_file.
    replace (code_section (source_code_new (lit ex_tight_file))) with (Some (lit ex_defs_tight)) by (vm_compute; reflexivity).
    replace (code_section (source_code_new (lit ex_wide_file))) with (Some (lit ex_defs_wide)) by (vm_compute; reflexivity).
    split; [right; split; [reflexivity|]; split; [reflexivity|]; exists ex_defs_words; exact ex_defs_spell|].
    exists (ex_fields ex_tight_file), (ex_fields ex_wide_file). split; [vm_compute; reflexivity|]. split; [vm_compute; reflexivity|].
    assert (V : forall A (P : A -> A -> Prop) a b, P a b -> forall l l', l = [a] -> l' = [b] -> Forall2 P l l') by (intros; subst; constructor; [assumption|constructor]).
    eapply V; [|vm_compute; reflexivity|vm_compute; reflexivity]. constructor; [left; vm_compute; auto|]. constructor; [right; split; [reflexivity|]|].
    { exists [WName (lit "rate")], (lit "rate"), (lit " rate"). split; [reflexivity|]. split; [reflexivity|]. split; [a_text (@nil N) [(WName (lit "rate"), @nil N)] (@nil N)|a_text (lit " ") [(WName (lit "rate"), @nil N)] (@nil N)]. }
    constructor; [right; split; [reflexivity|]|].
    { exists ex_words. eexists. eexists. split; [reflexivity|]. split; [reflexivity|]. split; [exact ex_tight|exact ex_wide]. }
    constructor; [left; vm_compute; auto|constructor].
  - intros t [<-|[<-|[]]]; eexists; apply (ex_run_yields _ _ _ _ _ false [["main"]]%string); vm_compute; reflexivity.
Qed.
(** Where space is needed, it cannot be left out: without it [rate :=1] reads as another name. *)
Theorem C89_no_space_refuted :
  (exists sc, code_section_parse (co_oracle ex_co) (lit "rate :=1") = Ok (sc, []) /\ variables sc = [(lit "rate", NVar (lit "rate") (VAst (NInt false None 1)))])
  /\ exists e, code_section_parse (co_oracle ex_co) (lit "rate:=1") = Err e.
Proof. split; eexists; [split; vm_compute; reflexivity|]. vm_compute. reflexivity. Qed.
Print Assumptions C89_no_space_refuted.
