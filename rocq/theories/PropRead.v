(** * PropRead: reading a program (C58). *)
From Verif Require Import Base BaseProofs Csvp SourceCode Ast AstParser AstParserProofs FormulaSpec FormulaInv PropCsvp PropFormula Options CellParser CellSpec CellProofs9 PropCell Sheet PropSheet
  ReadTerminates PropLoader.

(** ** C58 *)
(** Whatever the text of a source file, reading it - splitting it, parsing the code section, the CSV, the option lists and
    the formulas - comes to an end: [NoFuel] is the outcome of a loop that does not. *)
Theorem C58_reading_ends : forall co text, load_source co text <> NoFuel.
Proof. exact load_source_ends. Qed.
Print Assumptions C58_reading_ends.

Notation ascii s := (forallb is_ascii s = true).
Lemma ascii_app a b : ascii (a ++ b) <-> ascii a /\ ascii b.
Proof. rewrite forallb_app, andb_true_iff. reflexivity. Qed.
Lemma ascii_rev s : ascii s -> ascii (rev s).
Proof. rewrite !forallb_forall. intros H x Hx. apply H, in_rev, Hx. Qed.
Lemma strip_cr_ascii l : ascii l -> ascii (strip_cr l).
Proof.
  intro H. unfold strip_cr. destruct (rev l) as [|c r] eqn:R; [exact H|]. destruct (c =? c_cr)%N; [|exact H]. apply ascii_rev.
  apply ascii_rev in H. rewrite R in H. cbn [forallb] in H. apply andb_true_iff in H. apply H.
Qed.
Lemma lines_ascii : forall s cur, ascii s -> ascii cur -> Forall (fun l => ascii l) (lines_aux s cur).
Proof.
  induction s as [|c s IH]; intros cur Hs Hc; cbn [lines_aux].
  - destruct cur; [constructor|]. constructor; [exact Hc|constructor].
  - cbn [forallb] in Hs. apply andb_true_iff in Hs as [Hs1 Hs2]. destruct (c =? c_nl)%N.
    + constructor; [apply strip_cr_ascii, Hc|]. apply IH; [exact Hs2|reflexivity].
    + apply IH; [exact Hs2|]. apply ascii_app. split; [exact Hc|]. cbn [forallb]. rewrite Hs1. reflexivity.
Qed.
Lemma join_ascii sep ls : ascii sep -> Forall (fun l => ascii l) ls -> ascii (join sep ls).
Proof.
  intros Hs H. induction H as [|l ls Hl H IH]; [reflexivity|]. cbn [join]. destruct ls; [exact Hl|]. rewrite !forallb_app, Hl, Hs. exact IH.
Qed.
Lemma sections_ascii text : ascii text -> ascii (csv_section (source_code_new text)) /\ match code_section (source_code_new text) with Some s => ascii s | None => True end.
Proof.
  intro H. unfold source_code_new. pose proof (lines_ascii text [] H eq_refl) as L. destruct (position_of _ (lines_of text)) as [p|]; cbn [csv_section code_section]; [|auto].
  rewrite Forall_forall in L. split; apply join_ascii; try reflexivity; apply Forall_forall; intros x Hx; apply L.
  - unfold lines_of. rewrite <- (firstn_skipn (p + 1)). apply in_or_app. right. exact Hx.
  - unfold lines_of. rewrite <- (firstn_skipn p). apply in_or_app. left. exact Hx.
Qed.
(** A cell that cannot make the reader panic: one of ASCII characters; or one that consists of option lists in ASCII, written with spaces
    between options and between arguments, possibly none, and a value of whatever characters which, if it is a formula, can be cut anywhere (C48). *)
Definition safe_cell (co : cell_oracle) (s : str) : Prop :=
  forallb is_ascii s = true
  \/ exists t ls v, s = t ++ v /\ forallb is_ascii t = true /\ lists_text co true t ls /\ no_list v /\ (is_formula (trim v) -> cuttable (trim v)).
Lemma safe_cell_parse co f r : located f -> safe_cell co (f_value f) -> cell_parse co f r <> Panic.
Proof.
  intros L [A|[t [ls [v [E [A [H [N C]]]]]]]].
  - pose proof (cell_parse_sound co f r A L) as S1. destruct (cell_parse co f r); congruence || contradiction.
  - pose (rd := {| rd_text := t; rd_lists := ls; rd_value := v |}).
    assert (R : reads co true f rd) by (split; [exact E|split; [exact H|exact N]]).
    destruct (cell_parse_complete co f r rd A L R) as [C1 C2]. cbn [rd rd_lists rd_value] in *.
    destruct (placed_dec (addr_x (f_address f)) ls) as [P|P].
    2: { destruct C2 as [e [C2 _]]; [left; exact P|]. congruence. }
    destruct (is_formula_dec (trim v)) as [F|F].
    + destruct (formula_total2 co (trim v) (C F)) as [[a Fa]|[_ Nf]]; [rewrite (C1 a P Fa); discriminate|].
      destruct C2 as [e [C2 _]]; [right; auto|]. congruence.
    + rewrite (C1 None P (or_intror (conj F eq_refl))). discriminate.
Qed.
Lemma safe_row co fs : forall r, Forall (fun f => located f /\ safe_cell co (f_value f)) fs -> row_parse_cells co fs r <> Panic.
Proof.
  induction fs as [|f fs IH]; intros r H; cbn [row_parse_cells]; [discriminate|]. apply Forall_cons_iff in H as [[L S1] H].
  pose proof (safe_cell_parse co f r L S1) as K. destruct (cell_parse co f r) as [[c r']| | |]; cbn [bind]; try congruence; try discriminate.
  specialize (IH r' H). destruct (row_parse_cells co fs r') as [[cs r'']| | |]; cbn [bind]; congruence || discriminate.
Qed.
(** the cells of a source file: the fields of its CSV part *)
Definition cells_of (text : str) (s : str) : Prop := exists rs y x fs f,
  csvp_parse {| separator := c_comma; lines_above := length_of_code_section (source_code_new text) |} (csv_section (source_code_new text)) = Ok rs
  /\ nth_error rs y = Some fs /\ nth_error fs x = Some f /\ f_value f = s.
(** A file whose cells are safe and whose code section can be cut anywhere is read as a program or rejected with an error; it never makes the
    compiler panic. Missing: other files, for which it may (C40, C48). *)
Theorem C58_safe_partial : forall co text, (forall s, cells_of text s -> safe_cell co s) ->
  match code_section (source_code_new text) with Some s => cuttable s | None => True end ->
  (exists p, load_source co text = Ok p) \/ (exists e, load_source co text = Err e).
Proof.
  intros co text H Hs. unfold cells_of in H. set (src := source_code_new text) in *.
  assert (P : sheet_parse co src <> Panic).
  { unfold sheet_parse. destruct (csvp_parse _ (csv_section src)) as [rs| | |] eqn:C; cbn [bind]; try discriminate.
    2: { destruct (C06_total {| separator := c_comma; lines_above := length_of_code_section src |} (csv_section src)) as [[rs E]|[e [i [c [E _]]]]]; congruence. }
    assert (R : forall l a, rs = a ++ l -> parse_rows co l <> Panic).
    { induction l as [|fs l IH]; intros a Ea; cbn [parse_rows]; [discriminate|].
      assert (Hy : nth_error rs (length a) = Some fs) by (subst rs; rewrite nth_error_app2, Nat.sub_diag by lia; reflexivity).
      assert (K : row_parse co fs <> Panic).
      { unfold row_parse. assert (K : row_parse_cells co fs default_row <> Panic).
        { apply safe_row. apply Forall_forall. intros f Hf. apply In_nth_error in Hf as [x Hx].
          split; [exact (proj2 (csvp_record _ _ _ _ _ C Hy x f Hx))|]. apply H. exists rs, (length a), x, fs, f. auto. }
        destruct (row_parse_cells co fs default_row) as [[cs r]| | |]; cbn [bind]; congruence || discriminate. }
      destruct (row_parse co fs); cbn [bind]; try discriminate; [|congruence].
      specialize (IH (a ++ [fs]) ltac:(rewrite <- app_assoc; exact Ea)). destruct (parse_rows co l); cbn [bind]; try discriminate. congruence. }
    specialize (R rs [] eq_refl). destruct (parse_rows co rs); cbn [bind]; try discriminate. congruence. }
  pose proof (load_source_ends co text) as N. unfold load_source in *. fold src in N |- *. destruct (code_section src) as [s|].
  - destruct (C48_code_section_parsing_total_partial (co_oracle co) s Hs) as [[x E]|[e E]]; rewrite E in *; cbn [bind] in *; [|eauto].
    destruct x as [sc req]. destruct (sheet_parse co src); cbn [bind] in *; eauto; congruence.
  - cbn [bind] in *. destruct (sheet_parse co src); cbn [bind] in *; eauto; congruence.
Qed.
Print Assumptions C58_safe_partial.
(** In particular a file of ASCII characters. *)
Theorem C58_ascii_partial : forall co text, forallb is_ascii text = true ->
  (exists p, load_source co text = Ok p) \/ (exists e, load_source co text = Err e).
Proof.
  intros co text H. destruct (sections_ascii text H) as [Hc Hs]. apply C58_safe_partial.
  - intros s [rs [y [x [fs [f [C [Hy [Hx <-]]]]]]]]. left. pose proof (csvp_ascii _ _ _ _ _ C Hy Hc) as A. rewrite Forall_forall in A. apply A. eapply nth_error_In; eauto.
  - destruct (code_section (source_code_new text)); [|exact I]. apply C48_ascii_and_short_texts_are_cuttable. left. exact Hs.
Qed.
Print Assumptions C58_ascii_partial.
Example C58_nonvacuous : let text := lit ("use lib" ++ nl ++ "fn f(x) x + 1" ++ nl ++ "---" ++ nl ++ "![[t=b f=2]]a,[[v=q]]=f(1)" ++ nl)%string in
  forallb is_ascii text = true /\ (exists p, load_source ex_co text = Ok p /\ pr_required p = [[lit "lib"]] /\ length (sheet_rows (pr_sheet p)) = 1)
  /\ (exists e, load_source ex_co (lit "=f((") = Err e).
Proof. cbn zeta. split; [vm_compute; reflexivity|]. split; [eexists; vm_compute; auto|]. eexists. vm_compute. reflexivity. Qed.
(** a cell with letters that are not ASCII after its options, and a text without options *)
Example C58_safe_nonvacuous : let s1 := lit "[[t=b]] " ++ [233; 20013]%N in let s2 := [20013; 233]%N in let text := s1 ++ lit "," ++ s2 in
  (forall s, cells_of text s -> s = s1 \/ s = s2) /\ safe_cell ex_co s1 /\ safe_cell ex_co s2 /\ code_section (source_code_new text) = None
  /\ exists p, load_source ex_co text = Ok p.
Proof.
  cbn zeta. split; [|split; [|split; [|split; [reflexivity|eexists; vm_compute; reflexivity]]]].
  - intros s [rs [y [x [fs [f [C [Hy [Hx <-]]]]]]]]. vm_compute in C. injection C as <-. destruct y as [|[|y]]; try discriminate Hy. injection Hy as <-.
    destruct x as [|[|[|x]]]; try discriminate Hx; injection Hx as <-; vm_compute; auto.
  - right. exists (lit "[[t=b]]"), [(false, [OText TFBold])], (lit " " ++ [233; 20013]%N). split; [reflexivity|]. split; [reflexivity|]. split.
    + apply (CellProofs10.one_list ex_co (lit "t=b")). apply (ot_text ex_co true false (lit "t") (lit "=b") (lit "b") TFBold).
      * left. reflexivity.
      * exists [], []. repeat split.
      * split; [discriminate|reflexivity].
      * unfold spelled. vm_compute. auto 10.
    + split; [split; intros [r E]; discriminate E|]. intros [r E]. discriminate E.
  - right. exists [], [], [20013; 233]%N. split; [reflexivity|]. split; [reflexivity|]. split; [constructor|].
    split; [split; intros [r E]; discriminate E|]. intros [r E]. discriminate E.
Qed.
