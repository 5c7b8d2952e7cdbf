(** * CellProofs9: cells with their formulas, and rows. *)
From Verif Require Import Base BaseProofs Csvp CsvpTotal Ast AstLexer AstParser AstLexerProofs FormulaSpec AstParserProofs FormulaProofs FormulaText FormulaInv Options CellLexer CellParser CellSpec CellProofs CellProofs8 CellLocal.
From Verif Require Import LexTiling CodeSectionProofs.

(** ** Cells without option lists, whatever the characters *)
Lemma no_list_start v o : no_list v -> fst (maybe_take_start_options {| cl_input := v; cl_offset := o |}) = None.
Proof.
  intros [N1 N2]. unfold maybe_take_start_options, take_whitespace. cbn [cl_input cl_offset].
  destruct (strip_prefix (lit "[[") (trim_start v)) as [r|] eqn:E1.
  { apply AstLexerProofs.strip_prefix_spec in E1. destruct N1. exists r. exact E1. }
  destruct (strip_prefix (lit "![[") (trim_start v)) as [r|] eqn:E2; [|reflexivity].
  apply AstLexerProofs.strip_prefix_spec in E2. destruct N2. exists r. exact E2.
Qed.
Lemma parse_cell_plain co f r : no_list (f_value f) -> parse_cell co f r = Ok (cell_after f [] (f_value f) r, r).
Proof.
  intro N. unfold parse_cell. cbn [parse_option_lists]. pose proof (no_list_start _ 0 N) as H.
  destruct (maybe_take_start_options _) as [x l] eqn:E. cbn in H. subst x. cbn [bind].
  unfold cell_after, row_opts, cell_opts. cbn -[apply_opts]. rewrite !apply_opts_nil. unfold cell_default_from. cbn.
  assert (T : rest l = trim (f_value f)).
  { unfold rest. unfold maybe_take_start_options in E. cbn [cl_input take_whitespace] in E.
    destruct (strip_prefix (lit "[[") _); [discriminate|]. destruct (strip_prefix (lit "![[") _); [discriminate|].
    inversion E; subst. cbn. apply trim_trim_start. }
  rewrite T. reflexivity.
Qed.

(** ** The formula of a cell *)
Lemma is_formula_dec v : {is_formula v} + {~ is_formula v}.
Proof.
  destruct v as [|c v]; [right; intros [t H]; discriminate|]. destruct (N.eq_dec c c_eq) as [->|H].
  - left. exists v. reflexivity.
  - right. intros [t E]. congruence.
Qed.
Lemma starts_eq v : starts_with [c_eq] v = true <-> is_formula v.
Proof.
  unfold starts_with. split.
  - destruct (strip_prefix [c_eq] v) as [t|] eqn:E; [|discriminate]. intros _. exists t. exact (AstLexerProofs.strip_prefix_spec _ _ _ E).
  - intros [t ->]. change (c_eq :: t) with ([c_eq] ++ t). rewrite AstLexerProofs.strip_prefix_app. reflexivity.
Qed.
Lemma parse_formula_spec co f v :
  match parse_formula co f v with
  | Ok a => formula_of co v a
  | Err e => is_formula v /\ exists pe, ast_parse (co_oracle co) false v = Err pe
             /\ e = {| le_address := f_address f; le_error := BadFormula (parse_error_in_field f pe) |}
  | Panic => is_formula v /\ ast_parse (co_oracle co) false v = Panic
  | NoFuel => is_formula v /\ ast_parse (co_oracle co) false v = NoFuel
  end.
Proof.
  unfold parse_formula, formula_of. destruct (starts_with [c_eq] v) eqn:E.
  - apply starts_eq in E. destruct (ast_parse _ false v) eqn:P; eauto 6.
  - right. split; [|reflexivity]. intro H. apply starts_eq in H. congruence.
Qed.
Lemma parse_formula_ok co f v a : formula_of co v a -> parse_formula co f v = Ok a.
Proof.
  unfold parse_formula. intros [[F [n [P ->]]]|[F ->]].
  - apply starts_eq in F. rewrite F, P. reflexivity.
  - destruct (starts_with [c_eq] v) eqn:E; [|reflexivity]. apply starts_eq in E. contradiction.
Qed.

(** ** Cells *)
Definition with_ast (a : option node) (c : cell) : cell :=
  {| cell_ast := a; cell_field := cell_field c; parsed_value := parsed_value c;
     cell_options := cell_options c; cell_var := cell_var c |}.
Lemma ascii_trim v : ascii v -> ascii (trim v).
Proof.
  intro H. unfold trim. destruct (trim_end_prefix (trim_start v)) as [b [E _]].
  destruct (trim_start_split v) as [w [_ E']]. rewrite E' in H. apply ascii_app in H as [_ H].
  rewrite E in H. apply ascii_app in H. tauto.
Qed.
Lemma formula_total co v : ascii v -> (exists a, formula_of co v a) \/ (is_formula v /\ exists e, ast_parse (co_oracle co) false v = Err e).
Proof.
  intro A. destruct (is_formula_dec v) as [F|F].
  - destruct (parse_total (co_oracle co) false v (ascii_cuttable v A)) as [[n P]|[e P]].
    + left. exists (Some n). left. eauto.
    + right. eauto.
  - left. exists None. right. auto.
Qed.
Lemma cell_parse_sound co f r : ascii (f_value f) -> located f ->
  match cell_parse co f r with
  | Ok (c, r') => exists rd a, reads co false f rd /\ well_placed (addr_x (f_address f)) (rd_lists rd)
      /\ formula_of co (trim (rd_value rd)) a
      /\ c = with_ast a (cell_after f (rd_lists rd) (rd_value rd) r) /\ r' = row_after f (rd_lists rd) r
  | Err _ => True | Panic | NoFuel => False
  end.
Proof.
  intros A L. unfold cell_parse. pose proof (parse_cell_sound co f r A L) as H.
  destruct (parse_cell co f r) as [[c r']| | |]; cbn [at_address bind]; auto.
  destruct H as [t [ls [v [E [Hl [Hp [Hn [-> ->]]]]]]]].
  pose proof (parse_formula_spec co f (parsed_value (cell_after f ls v r))) as F.
  change (parsed_value (cell_after f ls v r)) with (trim v) in *.
  assert (Av : ascii (trim v)) by (apply ascii_trim; rewrite E in A; apply ascii_app in A; tauto).
  pose proof (parse_total (co_oracle co) false (trim v) (ascii_cuttable _ Av)) as T.
  destruct (parse_formula co f (trim v)) as [a| | |]; cbn [bind]; auto.
  - exists {| rd_text := t; rd_lists := ls; rd_value := v |}, a. split; [repeat split; auto; apply Hn|].
    split; [exact Hp|]. split; [exact F|]. split; reflexivity.
  - destruct F as [_ F]. destruct T as [[? T]|[? T]]; congruence.
  - destruct F as [_ F]. destruct T as [[? T]|[? T]]; congruence.
Qed.
Lemma placed_dec x ls : well_placed x ls \/ ~ well_placed x ls.
Proof.
  pose proof (placed_spec x ls false) as S1. unfold well_placed.
  rewrite Nat.add_0_r in S1. destruct (placed _ _ _); [left; apply S1; reflexivity|right; intro X; apply S1 in X; discriminate].
Qed.
Lemma cell_parse_complete co f r rd : ascii (rd_text rd) -> located f -> reads co true f rd ->
  (forall a, well_placed (addr_x (f_address f)) (rd_lists rd) -> formula_of co (trim (rd_value rd)) a ->
     cell_parse co f r = Ok (with_ast a (cell_after f (rd_lists rd) (rd_value rd) r), row_after f (rd_lists rd) r)) /\
  (~ well_placed (addr_x (f_address f)) (rd_lists rd) \/ cuttable (trim (rd_value rd)) /\ is_formula (trim (rd_value rd)) /\ (forall a, ~ formula_of co (trim (rd_value rd)) a) ->
     exists e, cell_parse co f r = Err e /\ le_address e = f_address f).
Proof.
  intros A L [E [Hl Hn]]. destruct (cell_complete co f r _ _ _ A L E Hl Hn) as [C1 C2]. split.
  - intros a P F. unfold cell_parse. rewrite (C1 P). cbn [at_address bind].
    change (parsed_value (cell_after f (rd_lists rd) (rd_value rd) r)) with (trim (rd_value rd)).
    rewrite (parse_formula_ok _ _ _ _ F). reflexivity.
  - intros H. destruct (placed_dec (addr_x (f_address f)) (rd_lists rd)) as [P|P].
    + destruct H as [H|[Cu [F H]]]; [contradiction|]. unfold cell_parse. rewrite (C1 P). cbn [at_address bind].
      change (parsed_value (cell_after f (rd_lists rd) (rd_value rd) r)) with (trim (rd_value rd)).
      pose proof (parse_formula_spec co f (trim (rd_value rd))) as S1.
      pose proof (parse_total (co_oracle co) false _ Cu) as T.
      destruct (parse_formula co f (trim (rd_value rd))) as [a|e| |]; cbn [bind].
      * destruct (H a S1).
      * destruct S1 as [_ [pe [_ ->]]]. eexists. split; reflexivity.
      * destruct S1 as [_ S1]. destruct T as [[? T]|[? T]]; congruence.
      * destruct S1 as [_ S1]. destruct T as [[? T]|[? T]]; congruence.
    + destruct (C2 P) as [e C]. unfold cell_parse. rewrite C. cbn. eexists. split; reflexivity.
Qed.
(** a cell that is accepted, its value whatever it may be *)
Lemma cell_parse_accepted co f r c r' : ascii_lists (f_value f) -> cell_parse co f r = Ok (c, r') ->
  exists rd a, reads co false f rd /\ ascii (rd_text rd) /\ well_placed (addr_x (f_address f)) (rd_lists rd)
      /\ formula_of co (trim (rd_value rd)) a
      /\ c = with_ast a (cell_after f (rd_lists rd) (rd_value rd) r) /\ r' = row_after f (rd_lists rd) r.
Proof.
  intros A H. unfold cell_parse in H. destruct (parse_cell co f r) as [[c0 r0]| | |] eqn:P; try discriminate H. cbn [at_address bind] in H.
  destruct (cell_accepted co f r c0 r0 A P) as [t [ls [v [E [At [Hl [Hp [Hn [-> ->]]]]]]]]].
  pose proof (parse_formula_spec co f (parsed_value (cell_after f ls v r))) as F.
  change (parsed_value (cell_after f ls v r)) with (trim v) in *.
  destruct (parse_formula co f (trim v)) as [a| | |]; try discriminate H. cbn [bind] in H. injection H as <- <-.
  exists {| rd_text := t; rd_lists := ls; rd_value := v |}, a. split; [repeat split; auto; apply Hn|]. split; [exact At|].
  split; [exact Hp|]. split; [exact F|]. split; reflexivity.
Qed.
Lemma ascii_front s : ascii s -> ascii_lists s.
Proof. intros A a b ->. apply ascii_app in A as [A _]. exact A. Qed.

(** ** Rows *)
Definition readable (fs : list field) : Prop := Forall (fun f => ascii (f_value f) /\ located f) fs.
Lemma row_after_no_row f ls r : filter fst ls = [] -> row_after f ls r = r.
Proof. intro H. unfold row_after, row_opts. rewrite H. cbn. rewrite apply_opts_nil. now destruct r. Qed.
Lemma before_cell_no_row ls : filter fst ls = [] -> before_cell ls = [].
Proof. destruct ls as [|[[] os] ls]; [reflexivity|discriminate|reflexivity]. Qed.
Definition later_cell (co : cell_oracle) (o : options) (f : field) (rd : reading) (c : cell) : Prop :=
  exists a, formula_of co (trim (rd_value rd)) a
   /\ c = with_ast a {| cell_ast := None; cell_field := f; parsed_value := trim (rd_value rd);
       cell_options := apply_opts (cell_opts (rd_lists rd)) o; cell_var := last_var (cell_opts (rd_lists rd)) None |}.
Lemma cell_after_later f ls v r : filter fst ls = [] ->
  cell_after f ls v r = {| cell_ast := None; cell_field := f; parsed_value := trim v;
       cell_options := apply_opts (cell_opts ls) (row_options r); cell_var := last_var (cell_opts ls) None |}.
Proof. intro H. unfold cell_after. rewrite (before_cell_no_row _ H). cbn -[apply_opts]. unfold row_opts. cbn -[apply_opts]. rewrite apply_opts_nil. reflexivity. Qed.
Lemma later_cells_accepted co : forall fs r cs r', Forall (fun f => ascii_lists (f_value f)) fs -> Forall (fun f => addr_x (f_address f) <> 0) fs ->
  row_parse_cells co fs r = Ok (cs, r') -> r' = r /\ exists rds, Forall2 (reads co false) fs rds
      /\ Forall (fun rd => ascii (rd_text rd) /\ well_placed 1 (rd_lists rd)) rds /\ length cs = length fs
      /\ forall i f rd c, nth_error fs i = Some f -> nth_error rds i = Some rd -> nth_error cs i = Some c -> later_cell co (row_options r) f rd c.
Proof.
  induction fs as [|f fs IH]; intros r cs r' R X H; cbn [row_parse_cells] in H.
  - injection H as <- <-. split; [reflexivity|]. exists []. split; [constructor|]. split; [constructor|]. split; [reflexivity|]. intros [|i]; discriminate.
  - apply Forall_cons_iff in R as [A R]. apply Forall_cons_iff in X as [Xf X].
    destruct (cell_parse co f r) as [[c r1]| | |] eqn:C; try discriminate H. cbn [bind] in H.
    destruct (cell_parse_accepted co f r c r1 A C) as [rd [a [Hr [At [Hp [Hf [-> ->]]]]]]]. destruct Hp as [[Hp|Hp] Hp2]; [contradiction|].
    rewrite (row_after_no_row _ _ _ Hp) in H. destruct (row_parse_cells co fs r) as [[cs1 r1]| | |] eqn:RC; try discriminate H. cbn [bind] in H. injection H as <- <-.
    destruct (IH r cs1 r1 R X RC) as [-> [rds [F2 [W [Hlen HC]]]]]. split; [reflexivity|]. exists (rd :: rds). split; [constructor; auto|].
    split; [constructor; [split; [exact At|split; [right; exact Hp|exact Hp2]]|exact W]|]. split; [cbn; congruence|].
    intros [|i] f' rd' c' E1 E2 E3; cbn in E1, E2, E3; [|eauto]. injection E1 as <-. injection E2 as <-. injection E3 as <-.
    exists a. split; [exact Hf|]. rewrite (cell_after_later _ _ _ _ Hp). reflexivity.
Qed.
Lemma cells_total co : forall fs r, readable fs -> row_parse_cells co fs r <> Panic /\ row_parse_cells co fs r <> NoFuel.
Proof.
  induction fs as [|f fs IH]; intros r R; cbn [row_parse_cells]; [split; discriminate|]. apply Forall_cons_iff in R as [[A L] R].
  pose proof (cell_parse_sound co f r A L) as H. destruct (cell_parse co f r) as [[c r']| | |]; cbn [bind]; try contradiction; try (split; discriminate).
  destruct (IH r' R) as [I1 I2]. destruct (row_parse_cells co fs r') as [[cs r'']| | |]; cbn [bind]; split; congruence.
Qed.
Lemma record_split y f fs : record_fields y (f :: fs) -> addr_x (f_address f) = 0 /\ addr_y (f_address f) = y /\ Forall (fun f => addr_x (f_address f) <> 0) fs.
Proof.
  intro R. destruct (R 0 f eq_refl) as [E _]. rewrite E. split; [reflexivity|]. split; [reflexivity|].
  apply Forall_forall. intros g Hg. apply In_nth_error in Hg as [i Hi]. destruct (R (S i) g Hi) as [Eg _]. rewrite Eg. discriminate.
Qed.
Lemma record_readable y fs : record_fields y fs -> Forall (fun f => ascii (f_value f)) fs -> readable fs.
Proof.
  intros R A. apply Forall_forall. intros f Hf. rewrite Forall_forall in A. split; [auto|].
  apply In_nth_error in Hf as [i Hi]. exact (proj2 (R i f Hi)).
Qed.
Lemma row_accepted co y fs r : record_fields y fs -> Forall (fun f => ascii_lists (f_value f)) fs -> row_parse co fs = Ok r ->
  exists rds, Forall2 (reads co false) fs rds /\ Forall (fun rd => ascii (rd_text rd)) rds
      /\ (forall i rd, nth_error rds i = Some rd -> well_placed i (rd_lists rd)) /\ row_means co y fs rds r.
Proof.
  intros R Rd H. unfold row_parse in H. destruct fs as [|f fs]; cbn [row_parse_cells] in H.
  - cbn [bind] in H. injection H as <-. exists []. split; [constructor|]. split; [constructor|]. split; [intros [|i]; discriminate|].
    constructor; cbn; try reflexivity. intros [|i]; discriminate.
  - destruct (record_split _ _ _ R) as [X0 [Y0 X]]. apply Forall_cons_iff in Rd as [Af Rd].
    destruct (cell_parse co f default_row) as [[c r']| | |] eqn:C; try discriminate H. cbn [bind] in H.
    destruct (cell_parse_accepted co f _ _ _ Af C) as [rd [a [Hr [At [Hp [Hf [-> ->]]]]]]]. rewrite X0 in Hp.
    destruct (row_parse_cells co fs _) as [[cs r1]| | |] eqn:RC; try discriminate H. cbn [bind] in H. injection H as <-.
    destruct (later_cells_accepted co fs _ _ _ Rd X RC) as [-> [rds [F2 [W [Hlen HC]]]]]. exists (rd :: rds). split; [constructor; auto|].
    split. { constructor; [exact At|]. eapply Forall_impl; [|exact W]. cbv beta. tauto. }
    split.
    { intros [|i] rd' E; cbn in E; [injection E as <-; exact Hp|]. rewrite Forall_forall in W.
      destruct (W _ (nth_error_In _ _ E)) as [_ [[W1|W1] W2]]; [discriminate|]. split; auto. }
    constructor; cbn -[apply_opts last_fill last_var]; try reflexivity.
    + rewrite Y0. reflexivity.
    + congruence.
    + intros [|i] f' rd' c' E1 E2 E3; cbn in E1, E2, E3.
      * injection E1 as <-. injection E2 as <-. injection E3 as <-. constructor; cbn -[apply_opts last_var]; try reflexivity. exact Hf.
      * destruct (HC _ _ _ _ E1 E2 E3) as [a' [Hf' ->]]. constructor; cbn -[apply_opts last_var]; try reflexivity. exact Hf'.
Qed.
Lemma row_parse_sound co y fs : record_fields y fs -> Forall (fun f => ascii (f_value f)) fs ->
  match row_parse co fs with
  | Ok r => exists rds, Forall2 (reads co false) fs rds
      /\ (forall i rd, nth_error rds i = Some rd -> well_placed i (rd_lists rd)) /\ row_means co y fs rds r
  | Err _ => True | Panic | NoFuel => False
  end.
Proof.
  intros R A. pose proof (record_readable _ _ R A) as Rd. destruct (cells_total co fs default_row Rd) as [T1 T2].
  assert (A2 : Forall (fun f => ascii_lists (f_value f)) fs) by (eapply Forall_impl; [|exact A]; intros f; apply ascii_front).
  pose proof (fun r => row_accepted co y fs r R A2) as Acc. unfold row_parse in *.
  destruct (row_parse_cells co fs default_row) as [[cs r']| | |]; cbn [bind] in *; auto.
  destruct (Acc _ eq_refl) as [rds [F2 [_ HH]]]. exists rds. split; [exact F2|exact HH].
Qed.
Lemma formula_total2 co v : cuttable v -> (exists a, formula_of co v a) \/ (is_formula v /\ forall a, ~ formula_of co v a).
Proof.
  intro A. destruct (is_formula_dec v) as [F|F].
  - destruct (parse_total (co_oracle co) false v A) as [[n P]|[e P]].
    + left. exists (Some n). left. eauto.
    + right. split; [exact F|]. intros a [[_ [n [Q _]]]|[Q _]]; [congruence|contradiction].
  - left. exists None. right. auto.
Qed.
Definition fine_later (co : cell_oracle) (rd : reading) : Prop := well_placed 1 (rd_lists rd) /\ exists a, formula_of co (trim (rd_value rd)) a.
Lemma later_cells_complete co : forall fs rds r, Forall located fs -> Forall (fun rd => ascii (rd_text rd)) rds -> Forall (fun f => addr_x (f_address f) <> 0) fs ->
  Forall2 (reads co true) fs rds ->
  (Forall (fine_later co) rds -> exists cs, row_parse_cells co fs r = Ok (cs, r)) /\
  (Forall (fun rd => cuttable (trim (rd_value rd))) rds -> ~ Forall (fine_later co) rds -> exists e, row_parse_cells co fs r = Err e).
Proof.
  intros fs rds r R B X F2. revert R B X. induction F2 as [|f rd fs rds Hr F2 IH]; intros R B X; cbn [row_parse_cells].
  - split; [eauto|]. intros _ H. destruct H. constructor.
  - apply Forall_cons_iff in R as [L R]. apply Forall_cons_iff in B as [A B]. apply Forall_cons_iff in X as [Xf X]. specialize (IH R B X).
    destruct (cell_parse_complete co f r rd A L Hr) as [C1 C2].
    assert (WP : forall ls, well_placed (addr_x (f_address f)) ls <-> well_placed 1 ls).
    { intro ls. unfold well_placed. split; intros [[H|H] H2]; try contradiction; try discriminate; auto. }
    split.
    + intro H. apply Forall_cons_iff in H as [[P [a Fa]] H]. rewrite (C1 a (proj2 (WP _) P) Fa). cbn [bind].
      destruct P as [[P|P] _]; [discriminate|]. rewrite (row_after_no_row _ _ _ P). destruct (proj1 IH H) as [cs ->]. cbn. eauto.
    + intros Cu H. apply Forall_cons_iff in Cu as [Cf Cu]. destruct (placed_dec 1 (rd_lists rd)) as [P|P].
      2:{ destruct C2 as [e [C2 _]]; [left; intro Q; apply WP in Q; contradiction|]. rewrite C2. cbn. eauto. }
      destruct (formula_total2 co _ Cf) as [[a Fa]|[Fi Nf]].
      2:{ destruct C2 as [e' [C2 _]]; [|rewrite C2; cbn; eauto]. right. auto. }
      rewrite (C1 a (proj2 (WP _) P) Fa). cbn [bind]. pose proof P as P'. destruct P' as [[P'|P'] _]; [discriminate|]. rewrite (row_after_no_row _ _ _ P').
      destruct (proj2 IH Cu) as [e ->]; [|cbn; eauto]. intro Q. apply H. constructor; [split; eauto|exact Q].
Qed.
Lemma row_parse_complete co y fs rds : record_fields y fs -> Forall (fun rd => ascii (rd_text rd)) rds ->
  Forall2 (reads co true) fs rds ->
  let fine := (forall i rd, nth_error rds i = Some rd -> well_placed i (rd_lists rd)) /\
              Forall (fun rd => exists a, formula_of co (trim (rd_value rd)) a) rds in
  (fine -> exists r, row_parse co fs = Ok r) /\
  (Forall (fun rd => cuttable (trim (rd_value rd))) rds -> ~ fine -> exists e, row_parse co fs = Err e).
Proof.
  intros R B F2.
  assert (Rd : Forall located fs).
  { apply Forall_forall. intros f Hf. apply In_nth_error in Hf as [i Hi]. exact (proj2 (R i f Hi)). }
  unfold row_parse. cbn zeta. destruct F2 as [|f rd fs rds Hr F2]; cbn [row_parse_cells bind].
  - split; [eauto|]. intros _ H. destruct H. split; [intros [|i]; discriminate|constructor].
  - destruct (record_split _ _ _ R) as [X0 [Y0 X]]. apply Forall_cons_iff in Rd as [Lf Rd]. apply Forall_cons_iff in B as [Af B].
    destruct (cell_parse_complete co f default_row rd Af Lf Hr) as [C1 C2]. rewrite X0 in C1, C2.
    destruct (later_cells_complete co fs rds (row_after f (rd_lists rd) default_row) Rd B X F2) as [L1 L2].
    split.
    + intros [P F]. apply Forall_cons_iff in F as [[a Fa] F]. rewrite (C1 a (P 0 rd eq_refl) Fa). cbn [bind].
      destruct L1 as [cs ->]; [|cbn; eauto]. apply Forall_forall. intros rd' I. rewrite Forall_forall in F. split; [|auto].
      apply In_nth_error in I as [i I]. destruct (P (S i) rd' I) as [[Q|Q] Q2]; [discriminate|]. split; auto.
    + intros Cu H. apply Forall_cons_iff in Cu as [Cf Cu]. destruct (placed_dec 0 (rd_lists rd)) as [P|P].
      2:{ destruct C2 as [e [C2 _]]; [left; exact P|]. rewrite C2. cbn. eauto. }
      destruct (formula_total2 co _ Cf) as [[a Fa]|[Fi Nf]].
      2:{ destruct C2 as [e' [C2 _]]; [|rewrite C2; cbn; eauto]. right. auto. }
      rewrite (C1 a P Fa). cbn [bind]. destruct (L2 Cu) as [e ->]; [|cbn; eauto]. intro Q. apply H. rewrite Forall_forall in Q. split.
      * intros [|i] rd' E; cbn in E; [injection E as <-; exact P|]. destruct (Q _ (nth_error_In _ _ E)) as [[[W|W] W2] _]; [discriminate|]. split; auto.
      * constructor; [eauto|]. apply Forall_forall. intros rd' I. apply Q in I. destruct I. auto.
Qed.

(** ** Records of a CSV text *)
Lemma csvp_record cfg inp rs y fs : csvp_parse cfg inp = Ok rs -> nth_error rs y = Some fs -> record_fields y fs.
Proof.
  intros H Hy c f Hc. destruct (csvp_addresses _ _ _ H y fs Hy) as [_ HA]. split; [exact (HA c f Hc)|].
  destruct (csvp_positions _ _ _ H y fs c f Hy Hc) as [raw [idxs [E [_ [L _]]]]]. unfold located. rewrite E, <- L.
  unfold trim. destruct (trim_end_prefix (trim_start raw)) as [b [Eb _]]. destruct (trim_start_split raw) as [w [_ Ew]].
  rewrite Ew at 2. rewrite Eb at 2. rewrite !app_length. lia.
Qed.
Lemma csvp_ascii cfg inp rs y fs : csvp_parse cfg inp = Ok rs -> nth_error rs y = Some fs -> ascii inp ->
  Forall (fun f => ascii (f_value f)) fs.
Proof.
  intros H Hy A. apply Forall_forall. intros f Hf. apply In_nth_error in Hf as [c Hc].
  destruct (csvp_positions _ _ _ H y fs c f Hy Hc) as [raw [idxs [E [L [_ [_ P]]]]]]. rewrite E. apply ascii_trim.
  unfold ascii in *. rewrite forallb_forall in *. intros x Hx. apply In_nth_error in Hx as [j Hj].
  assert (Hj' : j < length idxs) by (rewrite <- L; apply nth_error_Some; congruence).
  apply nth_error_Some in Hj'. destruct (nth_error idxs j) as [i|] eqn:Ei; [|congruence].
  destruct (P j i Ei) as [ch [I1 [I2 _]]]. assert (x = ch) as -> by congruence. apply A. eapply nth_error_In; eauto.
Qed.
Lemma csvp_trimmed cfg inp rs y fs f : csvp_parse cfg inp = Ok rs -> nth_error rs y = Some fs -> In f fs ->
  exists raw, f_value f = trim raw.
Proof.
  intros H Hy Hf. apply In_nth_error in Hf as [c Hc].
  destruct (csvp_positions _ _ _ H y fs c f Hy Hc) as [raw [idxs [E _]]]. eauto.
Qed.
