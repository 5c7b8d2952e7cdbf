(** * CellFewer: a cell that is read with fewer recorded positions is read the same with more (CellAlike.v has the case of as many). *)
From Verif Require Import Base BaseProofs Csvp CsvpSpec SourceCode Ast AstLexer AstParser Options CellLexer CellParser Sheet SameSpec SameProofs CsvShift.

(** a panic, or the same outcome up to the positions of errors *)
Definition fewer {A} (x y : outcome cell_error A) : Prop :=
  match x, y with
  | Ok a, Ok b => a = b
  | Err e, Err e' => ce_input e = ce_input e' /\ ce_message e = ce_message e'
  | Panic, _ => True | NoFuel, NoFuel => True
  | _, _ => False
  end.
Lemma outcome_fewer_refl {A} (x : outcome cell_error A) : fewer x x.
Proof. destruct x; cbn; auto. Qed.
Lemma fewer_bind {A B} (x y : outcome cell_error A) (k k' : A -> outcome cell_error B) :
  fewer x y -> (forall a, fewer (k a) (k' a)) -> fewer (bind x k) (bind y k').
Proof.
  intros H K. destruct x, y; cbn [fewer bind] in *; try contradiction; auto. subst. apply K.
Qed.

Definition fewer_places (f f' : field) : Prop :=
  f_address f = f_address f' /\ f_value f = f_value f' /\ length (f_positions f) <= length (f_positions f').
Lemma report_fewer {A} f f' w n : fewer_places f f' -> fewer (A := A) (report f w n) (report f' w n).
Proof.
  intros [_ [_ H]]. unfold report, position_for_offset. destruct (length (f_positions f) <=? n) eqn:L; [exact I|].
  apply Nat.leb_gt in L. destruct (Nat.leb_spec (length (f_positions f')) n); [lia|]. destruct (nth_error (f_positions f) n) eqn:E1; [|apply nth_error_None in E1; lia].
  destruct (nth_error (f_positions f') n) eqn:E2; [|apply nth_error_None in E2; lia]. split; reflexivity.
Qed.

Ltac fewer_step :=
  first [ apply outcome_fewer_refl | unfold token_error, unknown_string; apply report_fewer; assumption
        | assumption
        | match goal with H : forall _, fewer _ _ |- _ => apply H end
        | match goal with H : forall _ _, fewer _ _ |- _ => apply H end
        | match goal with H : forall _ _ _, fewer _ _ |- _ => apply H end
        | match goal with H : forall _ _ _ _, fewer _ _ |- _ => apply H end
        | apply fewer_bind; [|intros [? ?]] | apply fewer_bind; [|intros ?]
        | match goal with |- fewer (let (_, _) := ?x in _) _ => destruct x end
        | match goal with |- fewer (match ?x with _ => _ end) (match ?x with _ => _ end) => destruct x end ].
Ltac fewer_all := intros; repeat fewer_step.

Section Parsers.
  Variables (co : cell_oracle) (f f' : field).
  Hypothesis Ha : fewer_places f f'.

  Lemma take_fewer l sub : fewer (take f l sub) (take f' l sub).
  Proof. unfold take. cbv zeta. fewer_all. Qed.
  Lemma take_while_fewer l k p : fewer (take_while f l k p) (take_while f' l k p).
  Proof. unfold take_while. cbv zeta. fewer_all. Qed.
  Lemma take_color_fewer l : fewer (take_color co f l) (take_color co f' l).
  Proof. unfold take_color. cbv zeta. fewer_all. Qed.
  Lemma take_single_fewer l : fewer (take_single_quoted_string f l) (take_single_quoted_string f' l).
  Proof. unfold take_single_quoted_string. cbv zeta. fewer_all. Qed.
  Lemma take_string_fewer l : fewer (take_string co f l) (take_string co f' l).
  Proof. unfold take_string. cbv zeta. destruct (cl_input (take_whitespace l)); [apply take_while_fewer|]. destruct (_ =? _)%N; [apply take_single_fewer|apply take_while_fewer]. Qed.
  Lemma take_date_fewer l : fewer (take_date co f l) (take_date co f' l).
  Proof. unfold take_date. cbv zeta. fewer_all. Qed.
  Lemma maybe_quoted_fewer l : fewer (maybe_take_single_quoted_string f l) (maybe_take_single_quoted_string f' l).
  Proof.
    unfold maybe_take_single_quoted_string. destruct (span is_blank (cl_input l)) as [a b]. destruct (has_quoted b); [|apply outcome_fewer_refl].
    pose proof (take_single_fewer l) as H. destruct (take_single_quoted_string f l), (take_single_quoted_string f' l); cbn [fewer] in *; try contradiction; auto. congruence.
  Qed.
  Lemma or_error_fewer {A} t m (x : option A) : fewer (or_error f t m x) (or_error f' t m x).
  Proof. unfold or_error. fewer_all. Qed.
  Lemma rgb_fewer t : fewer (rgb_of_token f t) (rgb_of_token f' t).
  Proof. unfold rgb_of_token. fewer_all. Qed.
  Lemma number_fewer t : fewer (into_number f t) (into_number f' t).
  Proof. apply or_error_fewer. Qed.
  Lemma date_fewer t : fewer (into_date co f t) (into_date co f' t).
  Proof. apply or_error_fewer. Qed.
  Lemma ast_of_fewer t : fewer (ast_of_ctoken co f t) (ast_of_ctoken co f' t).
  Proof. unfold ast_of_ctoken. pose proof date_fewer. pose proof number_fewer. pose proof (@or_error_fewer str). fewer_all. Qed.
  Lemma one_fewer {A} tk (conv : field -> ctoken -> outcome cell_error A) l :
    (forall l, fewer (tk f l) (tk f' l)) -> (forall t, fewer (conv f t) (conv f' t)) -> fewer (one_in_parens tk conv f l) (one_in_parens tk conv f' l).
  Proof.
    intros Ht Hc. unfold one_in_parens. apply fewer_bind; [apply take_fewer|]. intro l1. apply fewer_bind; [apply Ht|]. intros [t l2].
    pose proof (Hc t) as H. destruct (conv f t) as [a|e| |], (conv f' t) as [a'|e'| |]; cbn [fewer] in H; try contradiction; try exact I.
    - subst a'. apply fewer_bind; [apply take_fewer|]. intro. apply outcome_fewer_refl.
    - apply fewer_bind; [apply take_fewer|]. intro. exact H.
  Qed.
  Lemma two_fewer {A} tk (conv : field -> ctoken -> outcome cell_error A) l :
    (forall l, fewer (tk f l) (tk f' l)) -> (forall t, fewer (conv f t) (conv f' t)) -> fewer (two_in_parens tk conv f l) (two_in_parens tk conv f' l).
  Proof. intros Ht Hc. unfold two_in_parens. pose proof take_fewer. fewer_all. Qed.
  Lemma list_token_fewer l : fewer (in_list_token co f l) (in_list_token co f' l).
  Proof. unfold in_list_token. cbv zeta. pose proof maybe_quoted_fewer. fewer_all. Qed.
  Lemma list_loop_fewer n : forall l acc, fewer (in_list_loop n co f l acc) (in_list_loop n co f' l acc).
  Proof. induction n as [|n IH]; intros l acc; [apply outcome_fewer_refl|]. cbn [in_list_loop]. pose proof list_token_fewer. pose proof ast_of_fewer. fewer_all. Qed.
  Lemma in_list_fewer l : fewer (in_list co f l) (in_list co f' l).
  Proof. unfold in_list. pose proof take_fewer. pose proof list_loop_fewer. fewer_all. Qed.
  Lemma in_range_fewer l : fewer (in_range co f l) (in_range co f' l).
  Proof. unfold in_range, take_a1. pose proof take_fewer. pose proof take_while_fewer. pose proof (@or_error_fewer str). fewer_all. Qed.
  Definition par {A} (p : parser A) : Prop := forall l, fewer (p f l) (p f' l).
  Lemma pmap_fewer {A B} (g : A -> B) p : par p -> par (pmap g p).
  Proof. intros H l. unfold pmap. apply fewer_bind; [apply H|]. intros [? ?]. apply outcome_fewer_refl. Qed.
  Lemma args_fewer k : par (validation_args co k).
  Proof.
    assert (D1 : par (one_date co)) by (intro; apply one_fewer; [apply take_date_fewer|apply date_fewer]).
    assert (D2 : par (two_dates co)) by (intro; apply two_fewer; [apply take_date_fewer|apply date_fewer]).
    assert (N1 : par one_number) by (intro; apply one_fewer; [intro; apply take_while_fewer|apply number_fewer]).
    assert (N2 : par two_numbers) by (intro; apply two_fewer; [intro; apply take_while_fewer|apply number_fewer]).
    assert (S1 : par (one_string co)) by (intro; apply one_fewer; [apply take_string_fewer|intro; apply outcome_fewer_refl]).
    destruct k; try (apply pmap_fewer; first [assumption | exact in_list_fewer | exact in_range_fewer]); intro; apply outcome_fewer_refl.
  Qed.
  Lemma right_side_fewer l : fewer (take_option_right_side co f l) (take_option_right_side co f' l).
  Proof. unfold take_option_right_side, take_identifier. pose proof take_fewer. pose proof take_while_fewer. fewer_all. Qed.
  Lemma word_fewer {A} (of : str -> option A) m mk : par (word_option co of m mk).
  Proof. intro l. unfold word_option. pose proof right_side_fewer. pose proof (@or_error_fewer A). fewer_all. Qed.
  Lemma color_fewer mk : par (color_option co mk).
  Proof. intro l. unfold color_option. pose proof take_fewer. pose proof take_color_fewer. pose proof rgb_fewer. fewer_all. Qed.
  Lemma string_fewer mk : par (string_option co mk).
  Proof. intro l. unfold string_option. pose proof take_fewer. pose proof take_string_fewer. fewer_all. Qed.
  Lemma option_fewer r k name : par (option_value co r k name).
  Proof.
    destruct k; try apply word_fewer; try apply color_fewer; try apply string_fewer; try (intro; apply outcome_fewer_refl).
    - intro l. cbn [option_value]. unfold validate_option. apply fewer_bind; [apply right_side_fewer|]. intros [t l1].
      apply fewer_bind; [apply or_error_fewer|]. intro k. apply pmap_fewer. apply args_fewer.
    - intro l. cbn [option_value]. unfold fill_option, take_positive_number. pose proof take_while_fewer. pose proof (@or_error_fewer nat). fewer_all.
    - intro l. cbn [option_value]. unfold font_size_option, take_positive_number. pose proof take_fewer. pose proof take_while_fewer. pose proof (@or_error_fewer nat). fewer_all.
    - intro l. cbn [option_value]. unfold var_option. pose proof right_side_fewer. fewer_all.
  Qed.
  Lemma parse_option_fewer r : par (parse_option co r).
  Proof.
    intro l. unfold parse_option, take_option_name. apply fewer_bind; [apply take_while_fewer|]. intros [t l1].
    apply fewer_bind; [apply or_error_fewer|]. intro k. apply option_fewer.
  Qed.

  (** the same outcome up to positions and to the fields of cells *)
  Definition cell_out (s : cell * row) : cell * row := (strip_cell (fst s), snd s).
  Definition fewer_to {A B} (g : A -> B) (x y : outcome cell_error A) : Prop := fewer (omap g x) (omap g y).
  Lemma fewer_to_bind {A B C D} (g : A -> C) (h : B -> D) x y k k' :
    fewer_to g x y -> (forall a b, g a = g b -> fewer_to h (k a) (k' b)) -> fewer_to h (bind x k) (bind y k').
  Proof. unfold fewer_to. intros H K. destruct x, y; cbn [omap fewer bind] in *; try contradiction; auto. Qed.
  Lemma fewer_to_of {A B} (g : A -> B) x y : fewer x y -> fewer_to g x y.
  Proof. unfold fewer_to. destruct x, y; cbn; auto. intros ->. reflexivity. Qed.
  Lemma assign_fewer r o s s' : cell_out s = cell_out s' -> cell_out (assign r f o s) = cell_out (assign r f' o s').
  Proof.
    destruct s as [c w], s' as [c' w']. unfold cell_out. cbn [fst snd]. intro H. apply pair_equal_spec in H as [H <-]. unfold assign. rewrite (proj1 Ha). destruct r; cbn [fst snd]; f_equal; [exact H|].
    apply strip_cell_alike in H as [H1 [H2 [H3 H4]]]. apply strip_cell_alike. unfold alike_cell, assign_cell. cbn [cell_ast parsed_value cell_options cell_var]. rewrite H3, H4. auto.
  Qed.
  Lemma cell_options_fewer r : forall n l s s', cell_out s = cell_out s' ->
    fewer_to (fun x => (cell_out (fst x), snd x)) (parse_cell_options n co r f l s) (parse_cell_options n co r f' l s').
  Proof.
    induction n as [|n IH]; intros l s s' H; [exact I|]. cbn [parse_cell_options].
    eapply fewer_to_bind with (g := fun x => x); [apply fewer_to_of; apply parse_option_fewer|]. intros [o l1] ? <-.
    cbv zeta. pose proof (assign_fewer r o s s' H) as A. destruct (maybe_take l1 (lit "/")) as [[l2|] l3]; [apply IH; exact A|].
    destruct (maybe_take l3 (lit "]]")) as [[l4|] l5]; [|apply IH; exact A]. unfold fewer_to. cbn [omap fewer fst snd]. rewrite A. reflexivity.
  Qed.
  Lemma option_lists_fewer : forall n l q q' r, option_map strip_cell q = option_map strip_cell q' ->
    fewer_to (fun '(p, r, l) => (option_map strip_cell p, r, l)) (parse_option_lists n co f l q r) (parse_option_lists n co f' l q' r).
  Proof.
    induction n as [|n IH]; intros l q q' r H; [exact I|]. cbn [parse_option_lists].
    destruct (maybe_take_start_options l) as [[[[st tok] l1]|] l2]; [|unfold fewer_to; cbn [omap fewer]; rewrite H; reflexivity].
    cbv zeta. set (is_row := match st with StartRow => true | StartCell => false end). rewrite (proj1 Ha).
    destruct (is_row && _); [apply fewer_to_of; apply report_fewer; exact Ha|].
    assert (B : match q with Some _ => true | None => false end = match q' with Some _ => true | None => false end) by (destruct q, q'; cbn in H; congruence).
    rewrite B. destruct (negb is_row && _); [apply fewer_to_of; apply report_fewer; exact Ha|].
    eapply fewer_to_bind; [apply cell_options_fewer; reflexivity|]. intros [s l3] [s' l3']. cbn [fst snd]. intro E. apply pair_equal_spec in E as [E <-].
    unfold cell_out in E. apply pair_equal_spec in E as [E1 E2]. rewrite E2. apply IH. destruct is_row; [exact H|]. cbn [option_map]. rewrite E1. reflexivity.
  Qed.
  Lemma parse_cell_fewer r : fewer_to cell_out (parse_cell co f r) (parse_cell co f' r).
  Proof.
    unfold parse_cell. rewrite (proj1 (proj2 Ha)). eapply fewer_to_bind; [apply option_lists_fewer; reflexivity|]. intros [[q r1] l] [[q' r1'] l'] E.
    apply pair_equal_spec in E as [E <-]. apply pair_equal_spec in E as [E <-]. unfold fewer_to. cbn [omap fewer]. unfold cell_out. cbn [fst snd]. f_equal.
    apply strip_cell_alike. assert (X : strip_cell match q with Some c => c | None => cell_default_from r1 f end = strip_cell match q' with Some c => c | None => cell_default_from r1 f' end) by (destruct q, q'; cbn [option_map] in E; try discriminate E; try reflexivity; congruence).
    apply strip_cell_alike in X as [X1 [X2 [X3 X4]]]. unfold alike_cell. cbn [cell_ast parsed_value cell_options cell_var]. auto.
  Qed.
  (** either both fail or both succeed fewer *)
  Lemma cell_parse_fewer r c w : cell_parse co f r = Ok (c, w) -> exists c', cell_parse co f' r = Ok (c', w) /\ alike_cell c c'.
  Proof.
    unfold cell_parse. pose proof (parse_cell_fewer r) as P. unfold fewer_to in P. destruct (parse_cell co f r) as [[c1 w1]| | |]; cbn [at_address bind]; intro H; try discriminate H.
    destruct (parse_cell co f' r) as [[c2 w2]| | |]; cbn [omap fewer] in P; try contradiction. unfold cell_out in P. cbn [fst snd] in P. apply pair_equal_spec in P as [P <-].
    apply strip_cell_alike in P as [P1 [P2 [P3 P4]]]. cbn [at_address bind]. rewrite <- P2. unfold parse_formula in *.
    destruct (starts_with [c_eq] (parsed_value c1)).
    - destruct (ast_parse (co_oracle co) false (parsed_value c1)) as [n| | |]; cbn [bind] in *; try discriminate H. injection H as <- <-. eexists. split; [reflexivity|]. split; [reflexivity|]. auto.
    - cbn [bind] in *. injection H as <- <-. eexists. split; [reflexivity|]. split; [reflexivity|]. auto.
  Qed.
End Parsers.

Lemma row_parse_fewer co fs fs' r : Forall2 fewer_places fs fs' -> row_parse co fs = Ok r -> exists r', row_parse co fs' = Ok r' /\ alike_row r r'.
Proof.
  intros H P. unfold row_parse in *. set (w := default_row) in *. clearbody w.
  assert (X : forall w cs w1, row_parse_cells co fs w = Ok (cs, w1) -> exists cs', row_parse_cells co fs' w = Ok (cs', w1) /\ Forall2 alike_cell cs cs').
  { clear P. induction H as [|f f' fs fs' Hf _ IH]; intros v cs w1 P; cbn [row_parse_cells] in *; [injection P as <- <-; eexists; split; [reflexivity|constructor]|].
    destruct (cell_parse co f v) as [[c v1]| | |] eqn:E1; try discriminate P. cbn [bind] in P. destruct (cell_parse_fewer co f f' Hf v c v1 E1) as [c' [-> A]]. cbn [bind].
    destruct (row_parse_cells co fs v1) as [[cs1 v2]| | |] eqn:E2; try discriminate P. cbn [bind] in P. injection P as <- <-. destruct (IH _ _ _ E2) as [cs' [-> B]]. cbn [bind]. eexists. split; [reflexivity|]. constructor; assumption. }
  destruct (row_parse_cells co fs w) as [[cs w1]| | |] eqn:E; try discriminate P. cbn [bind] in P. injection P as <-. destruct (X _ _ _ E) as [cs' [-> A]]. cbn [bind]. eexists. split; [reflexivity|].
  unfold alike_row. cbn [row_options row_fill row_var row_cells]. auto.
Qed.
Lemma parse_rows_fewer co rs rs' rows : Forall2 (Forall2 fewer_places) rs rs' -> parse_rows co rs = Ok rows -> exists rows', parse_rows co rs' = Ok rows' /\ Forall2 alike_row rows rows'.
Proof.
  intro H. revert rows. induction H as [|fs fs' rs rs' Hf _ IH]; intros rows P; cbn [parse_rows] in *; [injection P as <-; eexists; split; [reflexivity|constructor]|].
  destruct (row_parse co fs) as [r| | |] eqn:E1; try discriminate P. cbn [bind] in P. destruct (row_parse_fewer co fs fs' r Hf E1) as [r' [-> A]]. cbn [bind].
  destruct (parse_rows co rs) as [rows1| | |]; try discriminate P. cbn [bind] in P. injection P as <-. destruct (IH _ eq_refl) as [rows' [-> B]]. cbn [bind]. eexists. split; [reflexivity|]. constructor; assumption.
Qed.
