(** * CellProofs8: the option lists of a cell, and the cell itself. *)
From Verif Require Import Base BaseProofs Csvp Ast AstLexer AstParser AstLexerProofs Options CellLexer CellParser CellSpec CellProofs CellProofs2 CellProofs3 CellProofs4 CellProofs5 CellProofs6 CellProofs7.

(** ** The effect of a list of options *)
Lemma last_var_app a b d : last_var (a ++ b) d = last_var b (last_var a d).
Proof. unfold last_var. apply fold_left_app. Qed.
Lemma last_fill_app y a b d : last_fill y (a ++ b) d = last_fill y b (last_fill y a d).
Proof. unfold last_fill. apply fold_left_app. Qed.
Lemma apply_opts_app a b x : apply_opts (a ++ b) x = apply_opts b (apply_opts a x).
Proof. unfold apply_opts, last_of, added. cbn. now rewrite !fold_left_app. Qed.
Lemma insert_border_dec v l : insert_by border_side_eqb v l = if in_dec border_side_dec v l then l else l ++ [v].
Proof.
  unfold insert_by. assert (E : existsb (border_side_eqb v) l = true <-> In v l).
  { rewrite existsb_exists. split.
    - intros [x [Hx E]]. destruct v, x; discriminate || exact Hx.
    - intro H. exists v. split; [exact H|]. now destruct v. }
  destruct (existsb (border_side_eqb v) l), (in_dec border_side_dec v l); try reflexivity.
  - destruct n. now apply E.
  - apply E in i. discriminate.
Qed.
Lemma insert_text_dec v l : insert_by text_format_eqb v l = if in_dec text_format_dec v l then l else l ++ [v].
Proof.
  unfold insert_by. assert (E : existsb (text_format_eqb v) l = true <-> In v l).
  { rewrite existsb_exists. split.
    - intros [x [Hx E]]. destruct v, x; discriminate || exact Hx.
    - intro H. exists v. split; [exact H|]. now destruct v. }
  destruct (existsb (text_format_eqb v) l), (in_dec text_format_dec v l); try reflexivity.
  - destruct n. now apply E.
  - apply E in i. discriminate.
Qed.
Lemma apply_opts_cons o os x : apply_opts (o :: os) x = apply_opts os (set_option o x).
Proof.
  destruct o; try reflexivity.
  - unfold apply_opts, set_option, insert_border. cbn [borders border_color border_style_ color validation font_color font_family font_size horizontal_align_ lock note number_format_ text_formats text_wrap_ vertical_align_].
    rewrite insert_border_dec. reflexivity.
  - unfold apply_opts, set_option, insert_text_format. cbn [borders border_color border_style_ color validation font_color font_family font_size horizontal_align_ lock note number_format_ text_formats text_wrap_ vertical_align_].
    rewrite insert_text_dec. reflexivity.
Qed.
Lemma apply_opts_nil x : apply_opts [] x = x.
Proof. now destruct x. Qed.
Lemma row_after_nil f r : row_after f [] r = r.
Proof. unfold row_after, row_opts. cbn. rewrite apply_opts_nil. now destruct r. Qed.
Definition row_with (f : field) (os : list opt) (r : row) : row :=
  {| row_cells := row_cells r; row_options := apply_opts os (row_options r);
     row_fill := last_fill (addr_y (f_address f)) os (row_fill r); row_var := last_var os (row_var r) |}.
Definition cell_with (os : list opt) (c : cell) : cell :=
  {| cell_ast := cell_ast c; cell_field := cell_field c; parsed_value := parsed_value c;
     cell_options := apply_opts os (cell_options c); cell_var := last_var os (cell_var c) |}.
Lemma run_row f : forall os c r, run true f os (c, r) = (c, row_with f os r).
Proof.
  induction os as [|o os IH]; intros c r; [destruct r as [? x ? ?]; unfold row_with; cbn; rewrite apply_opts_nil; reflexivity|]. unfold run in *. cbn [fold_left]. cbn [assign fst snd].
  rewrite IH. unfold row_with. rewrite apply_opts_cons. destruct o; reflexivity.
Qed.
Lemma run_cell f : forall os c r, run false f os (c, r) = (cell_with os c, r).
Proof.
  induction os as [|o os IH]; intros c r; [destruct c as [? ? ? x ?]; unfold cell_with; cbn -[apply_opts]; rewrite apply_opts_nil; reflexivity|]. unfold run in *. cbn [fold_left]. cbn [assign fst snd].
  rewrite IH. unfold cell_with. rewrite apply_opts_cons. destruct o; reflexivity.
Qed.
Lemma row_with_app f a b r : row_with f (a ++ b) r = row_with f b (row_with f a r).
Proof. unfold row_with. cbn. rewrite apply_opts_app, last_fill_app, last_var_app. reflexivity. Qed.

(** what the lists of a cell amount to, processed one after the other *)
Fixpoint placed (x : nat) (seen : bool) (ls : list (bool * list opt)) : bool :=
  match ls with
  | [] => true
  | (true, _) :: ls => (x =? 0) && placed x seen ls
  | (false, _) :: ls => negb seen && placed x true ls
  end.
Lemma placed_spec x : forall ls seen, placed x seen ls = true <->
  (x = 0 \/ filter fst ls = []) /\ length (filter (fun y => negb (fst y)) ls) + (if seen then 1 else 0) <= 1.
Proof.
  induction ls as [|[[] os] ls IH]; intro seen; cbn [placed filter fst negb length].
  - destruct seen; cbn; intuition lia.
  - rewrite andb_true_iff, IH, Nat.eqb_eq. split; [intros [-> [_ H]]; auto|]. intros [[->|H] Hl]; [auto|discriminate].
  - rewrite andb_true_iff, IH. destruct seen; cbn [negb]; split; intros [H1 H2]; try discriminate; try lia.
    + destruct H2 as [H2 H3]. split; [exact H2|]. lia.
    + split; [reflexivity|]. split; [exact H1|]. lia.
Qed.
Fixpoint lists_cell (f : field) (ls : list (bool * list opt)) (r : row) : option cell :=
  match ls with
  | [] => None
  | (true, os) :: ls => lists_cell f ls (row_with f os r)
  | (false, os) :: ls => Some (cell_with os (cell_default_from r f))
  end.
Lemma row_after_cons_row f os ls r : row_after f ((true, os) :: ls) r = row_after f ls (row_with f os r).
Proof.
  unfold row_after, row_opts. cbn [filter fst map snd concat]. unfold row_with. cbn.
  rewrite apply_opts_app, last_fill_app, last_var_app. reflexivity.
Qed.
Lemma row_after_cons_cell f os ls r : row_after f ((false, os) :: ls) r = row_after f ls r.
Proof. reflexivity. Qed.
Lemma lists_cell_spec f x v : forall ls r, placed x false ls = true ->
  let c := match lists_cell f ls r with Some c => c | None => cell_default_from (row_after f ls r) f end in
  {| cell_ast := cell_ast c; cell_field := cell_field c; parsed_value := trim v; cell_options := cell_options c; cell_var := cell_var c |}
  = cell_after f ls v r.
Proof.
  induction ls as [|[[] os] ls IH]; intros r H.
  - reflexivity.
  - cbn [lists_cell]. cbn [placed] in H. apply andb_true_iff in H as [_ H]. specialize (IH (row_with f os r) H). cbn zeta in *.
    rewrite row_after_cons_row, IH. unfold cell_after. f_equal. unfold cell_opts, row_opts. cbn [before_cell filter fst negb map snd concat].
    rewrite apply_opts_app. reflexivity.
  - cbn [placed] in H. apply andb_true_iff in H as [_ H]. apply placed_spec in H as [_ H].
    assert (E : filter (fun y : bool * list opt => negb (fst y)) ls = []).
    { destruct (filter (fun y : bool * list opt => negb (fst y)) ls); [reflexivity|cbn in H; lia]. }
    cbn zeta. cbn [lists_cell]. unfold cell_after, cell_opts. cbn [before_cell filter fst negb map snd concat]. rewrite E. cbn [map concat].
    rewrite app_nil_r. reflexivity.
Qed.

(** ** The loop over the lists *)
Lemma start_ok f l : wf f l ->
  match maybe_take_start_options l with
  | (Some (st, tok, l'), _) => wf f l' /\ tok_at f tok /\ exists w, spaces w
      /\ cl_input l = w ++ (match st with StartCell => lit "[[" | StartRow => lit "![[" end) ++ cl_input l'
  | (None, l') => wf f l' /\ no_list (cl_input l) /\ exists w, spaces w /\ cl_input l = w ++ cl_input l'
  end.
Proof.
  intro H. unfold maybe_take_start_options. destruct (wf_take_ws f l H) as [W [w [Hw [E Hh]]]].
  destruct (strip_prefix (lit "[[") (cl_input (take_whitespace l))) as [r|] eqn:S1.
  { apply strip_prefix_spec in S1. destruct (wf_step f _ _ _ W S1) as [W' _]. split; [exact W'|]. split; [apply wf_token; exact W|].
    exists w. split; [exact Hw|]. cbn [cl_input]. rewrite E, S1. reflexivity. }
  destruct (strip_prefix (lit "![[") (cl_input (take_whitespace l))) as [r|] eqn:S2.
  { apply strip_prefix_spec in S2. destruct (wf_step f _ _ _ W S2) as [W' _]. split; [exact W'|]. split; [apply wf_token; exact W|].
    exists w. split; [exact Hw|]. cbn [cl_input]. rewrite E, S2. reflexivity. }
  split; [exact W|]. split; [|eauto]. split; intros [r Er]; change (cl_input (take_whitespace l)) with (trim_start (cl_input l)) in *;
    rewrite Er, strip_prefix_app in *; discriminate.
Qed.
Definition merged (parsed : option cell) (c : option cell) : option cell := match parsed with Some _ => parsed | None => c end.
Lemma parse_option_lists_sound co f : forall n l parsed r, wf f l -> length (cl_input l) < n ->
  match parse_option_lists n co f l parsed r with
  | Ok (p, r', l') => wf f l' /\ exists t ls w, cl_input l = t ++ w ++ cl_input l' /\ spaces w /\ lists_text co false t ls
      /\ no_list (w ++ cl_input l') /\ placed (addr_x (f_address f)) (match parsed with Some _ => true | None => false end) ls = true
      /\ r' = row_after f ls r /\ p = merged parsed (lists_cell f ls r)
  | Err _ => True | Panic | NoFuel => False
  end.
Proof.
  induction n as [|n IH]; intros l parsed r H Hn; [lia|]. cbn [parse_option_lists].
  pose proof (start_ok f l H) as S. destruct (maybe_take_start_options l) as [[[[st tok] l1]|] l0].
  2: { destruct S as [W [N [w [Hw E]]]]. split; [exact W|]. exists [], [], w. split; [exact E|]. split; [exact Hw|].
       split; [constructor|]. split; [rewrite <- E; exact N|]. split; [reflexivity|]. split; [rewrite row_after_nil; reflexivity|]. destruct parsed; reflexivity. }
  destruct S as [W1 [Ht [w [Hw E]]]].
  assert (L1 : length (cl_input l1) < length (cl_input l)) by (rewrite E, !app_length; destruct st; cbn; lia).
  destruct st.
  - cbn [andb negb]. destruct parsed as [c|].
    { edestruct (Ht (option cell * row * clexer)%type) as [e ->]. exact I. }
    pose proof (parse_cell_options_sound co false f (S (length (cl_input l1))) l1 (cell_default_from r f, r) W1 ltac:(lia)) as O.
    destruct (parse_cell_options (S (length (cl_input l1))) co false f l1 (cell_default_from r f, r)) as [[s' l2]| | |]; cbn [bind]; auto.
    destruct O as [W2 [x [os [E2 [Hx Es]]]]]. rewrite run_cell in Es. subst s'. cbn [fst snd].
    assert (L2 : length (cl_input l2) < n) by (rewrite E2, app_length in L1; lia).
    specialize (IH l2 (Some (cell_with os (cell_default_from r f))) r W2 L2).
    destruct (parse_option_lists n co f l2 (Some (cell_with os (cell_default_from r f))) r) as [[[p r'] l3]| | |]; auto.
    destruct IH as [W3 [t [ls [w' [E3 [Hw' [Hls [N [P [Er Ep]]]]]]]]]]. split; [exact W3|].
    exists (w ++ lit "[[" ++ x ++ t), ((false, os) :: ls), w'. split; [rewrite E, E2, E3, <- !app_assoc; reflexivity|].
    split; [exact Hw'|]. split; [apply ls_cell; assumption|]. split; [exact N|]. split; [exact P|]. split; [exact Er|exact Ep].
  - cbn [negb]. destruct (addr_x (f_address f) =? 0) eqn:X; cbn [andb negb].
    2: { edestruct (Ht (option cell * row * clexer)%type) as [e ->]. exact I. }
    pose proof (parse_cell_options_sound co true f (S (length (cl_input l1))) l1 (cell_default_from r f, r) W1 ltac:(lia)) as O.
    destruct (parse_cell_options (S (length (cl_input l1))) co true f l1 (cell_default_from r f, r)) as [[s' l2]| | |]; cbn [bind]; auto.
    destruct O as [W2 [x [os [E2 [Hx Es]]]]]. rewrite run_row in Es. subst s'. cbn [fst snd].
    assert (L2 : length (cl_input l2) < n) by (rewrite E2, app_length in L1; lia).
    specialize (IH l2 parsed (row_with f os r) W2 L2).
    destruct (parse_option_lists n co f l2 parsed (row_with f os r)) as [[[p r'] l3]| | |]; auto.
    destruct IH as [W3 [t [ls [w' [E3 [Hw' [Hls [N [P [Er Ep]]]]]]]]]]. split; [exact W3|].
    exists (w ++ lit "![[" ++ x ++ t), ((true, os) :: ls), w'. split; [rewrite E, E2, E3, <- !app_assoc; reflexivity|].
    split; [exact Hw'|]. split; [apply ls_row; assumption|]. split; [exact N|].
    split; [cbn [placed]; rewrite X; exact P|]. split; [rewrite row_after_cons_row; exact Er|exact Ep].
Qed.
Lemma start_done f l w st r : wf f l -> cl_input l = w ++ (match st with StartCell => lit "[[" | StartRow => lit "![[" end) ++ r -> spaces w ->
  exists tok l' l0, maybe_take_start_options l = (Some (st, tok, l'), l0) /\ cl_input l' = r /\ wf f l' /\ tok_at f tok.
Proof.
  intros H E Hw. unfold maybe_take_start_options. destruct (wf_take_ws f l H) as [W _].
  assert (X : cl_input (take_whitespace l) = (match st with StartCell => lit "[[" | StartRow => lit "![[" end) ++ r).
  { eapply take_ws_reads; eauto. destruct st; reflexivity. }
  destruct st.
  - rewrite X, strip_prefix_app. do 3 eexists. split; [reflexivity|]. split; [reflexivity|].
    split; [apply (wf_step f _ _ _ W X)|apply wf_token; exact W].
  - rewrite X. replace (strip_prefix (lit "[[") (lit "![[" ++ r)) with (@None str) by reflexivity.
    rewrite strip_prefix_app. do 3 eexists. split; [reflexivity|]. split; [reflexivity|].
    split; [apply (wf_step f _ _ _ W X)|apply wf_token; exact W].
Qed.
Lemma parse_option_lists_complete co f v : no_list v -> forall t ls, lists_text co true t ls -> forall n l parsed r, wf f l ->
  cl_input l = t ++ v -> length (cl_input l) < n ->
  if placed (addr_x (f_address f)) (match parsed with Some _ => true | None => false end) ls
  then exists l', parse_option_lists n co f l parsed r = Ok (merged parsed (lists_cell f ls r), row_after f ls r, l')
    /\ exists w, spaces w /\ v = w ++ cl_input l'
  else exists e, parse_option_lists n co f l parsed r = Err e.
Proof.
  intros Hv t ls Hls. induction Hls as [|w x os rest ls Hw Hx Hls IH|w x os rest ls Hw Hx Hls IH]; intros n l parsed r H E Hn.
  - destruct n as [|n]; [lia|]. cbn [placed parse_option_lists app] in *. destruct (wf_take_ws f l H) as [_ [w [Hw [Ew _]]]].
    unfold maybe_take_start_options. change (cl_input (take_whitespace l)) with (trim_start (cl_input l)). rewrite E.
    destruct Hv as [N1 N2].
    destruct (strip_prefix (lit "[[") (trim_start v)) as [q|] eqn:S1; [apply strip_prefix_spec in S1; destruct N1; eauto|].
    destruct (strip_prefix (lit "![[") (trim_start v)) as [q|] eqn:S2; [apply strip_prefix_spec in S2; destruct N2; eauto|].
    exists (take_whitespace l). split; [rewrite row_after_nil; destruct parsed; reflexivity|]. exists w. split; [exact Hw|]. rewrite <- E. exact Ew.
  - destruct n as [|n]; [lia|]. rewrite <- !app_assoc in E.
    destruct (start_done f l w StartCell _ H E Hw) as [tok [l1 [l0 [X1 [X2 [X3 X4]]]]]]. cbn [parse_option_lists]. rewrite X1. cbn [andb negb].
    cbn [placed]. destruct parsed as [c|]; cbn [negb andb].
    { apply X4. }
    destruct (parse_cell_options_complete co false f x os Hx (S (length (cl_input l1))) l1 (cell_default_from r f, r) (rest ++ v) X3 (or_intror X2) ltac:(lia))
      as [l2 [Y1 [Y2 Y3]]].
    rewrite Y1. cbn [bind]. rewrite run_cell. cbn [fst snd].
    assert (L2 : length (cl_input l2) < n) by (rewrite Y2; rewrite E, !app_length in Hn; cbn in Hn; rewrite app_length; lia).
    exact (IH n l2 (Some (cell_with os (cell_default_from r f))) r Y3 Y2 L2).
  - destruct n as [|n]; [lia|]. rewrite <- !app_assoc in E.
    destruct (start_done f l w StartRow _ H E Hw) as [tok [l1 [l0 [X1 [X2 [X3 X4]]]]]]. cbn [parse_option_lists]. rewrite X1. cbn [negb].
    cbn [placed]. destruct (addr_x (f_address f) =? 0) eqn:X; cbn [negb andb].
    2: { apply X4. }
    destruct (parse_cell_options_complete co true f x os Hx (S (length (cl_input l1))) l1 (cell_default_from r f, r) (rest ++ v) X3 (or_intror X2) ltac:(lia))
      as [l2 [Y1 [Y2 Y3]]].
    rewrite Y1. cbn [bind]. rewrite run_row. cbn [fst snd].
    assert (L2 : length (cl_input l2) < n) by (rewrite Y2; rewrite E, !app_length in Hn; cbn in Hn; rewrite app_length; lia).
    rewrite row_after_cons_row. exact (IH n l2 parsed (row_with f os r) Y3 Y2 L2).
Qed.

(** ** The cell *)
Lemma trim_spaces w v : spaces w -> trim (w ++ v) = trim v.
Proof. intro H. apply trim_app_ws. exact H. Qed.
Lemma located_wf f : ascii (f_value f) -> located f -> f_value f <> [] -> wf f {| cl_input := f_value f; cl_offset := 0 |}.
Proof.
  intros A L N. unfold located in L. split; [exact A|]. cbn. split; [exact L|]. destruct (f_value f); [congruence|]. cbn in L. lia.
Qed.
Lemma no_list_nil : no_list [].
Proof. split; intros [r Hr]; discriminate. Qed.
Lemma parse_cell_empty co f r : f_value f = [] -> parse_cell co f r = Ok (cell_after f [] [] r, row_after f [] r).
Proof. intro E. unfold parse_cell. rewrite E, row_after_nil. unfold cell_after, row_opts, cell_opts. cbn -[apply_opts]. rewrite !apply_opts_nil. reflexivity. Qed.
Lemma parse_cell_sound co f r : ascii (f_value f) -> located f ->
  match parse_cell co f r with
  | Ok (c, r') => exists t ls v, f_value f = t ++ v /\ lists_text co false t ls /\ well_placed (addr_x (f_address f)) ls /\ no_list v
      /\ c = cell_after f ls v r /\ r' = row_after f ls r
  | Err _ => True | Panic | NoFuel => False
  end.
Proof.
  intros A L. destruct (f_value f) as [|c0 s0] eqn:E0.
  { rewrite (parse_cell_empty co f r E0). exists [], [], []. split; [reflexivity|]. split; [constructor|].
    split; [split; [right; reflexivity|cbn; lia]|]. split; [apply no_list_nil|]. auto. }
  assert (W : wf f {| cl_input := f_value f; cl_offset := 0 |}).
  { apply located_wf; [rewrite E0; exact A|exact L|rewrite E0; discriminate]. }
  rewrite <- E0 in *. clear c0 s0 E0.
  unfold parse_cell.
  pose proof (parse_option_lists_sound co f (S (length (f_value f))) _ None r W ltac:(cbn; lia)) as SND.
  destruct (parse_option_lists (S (length (f_value f))) co f {| cl_input := f_value f; cl_offset := 0 |} None r) as [[[p r'] l']| | |];
    cbn [bind]; auto.
  destruct SND as [W' [t [ls [w [E [Hw [Hls [N [P [-> ->]]]]]]]]]]. cbn [cl_input merged] in *.
  exists t, ls, (w ++ cl_input l'). split; [exact E|]. split; [exact Hls|]. split.
  { apply placed_spec in P. unfold well_placed. rewrite Nat.add_0_r in P. exact P. }
  split; [exact N|]. split; [|reflexivity]. pose proof (lists_cell_spec f _ (w ++ cl_input l') ls r P) as C. cbn zeta in C.
  rewrite trim_spaces in C by exact Hw. unfold rest. rewrite <- C. reflexivity.
Qed.
Lemma parse_cell_complete co f r t ls v : ascii (f_value f) -> located f -> f_value f = t ++ v -> lists_text co true t ls -> no_list v ->
  (well_placed (addr_x (f_address f)) ls -> parse_cell co f r = Ok (cell_after f ls v r, row_after f ls r)) /\
  (~ well_placed (addr_x (f_address f)) ls -> exists e, parse_cell co f r = Err e).
Proof.
  intros A L E Hls N. destruct (f_value f) as [|c0 s0] eqn:E0.
  { symmetry in E. apply app_eq_nil in E as [-> ->].
    assert (ls = []) as -> by (inversion Hls; subst; auto; destruct w; discriminate).
    split; [intros _; apply parse_cell_empty; exact E0|]. intro H. destruct H. split; [right; reflexivity|cbn; lia]. }
  assert (W : wf f {| cl_input := f_value f; cl_offset := 0 |}).
  { apply located_wf; [rewrite E0; exact A|exact L|rewrite E0; discriminate]. }
  rewrite <- E0 in *. clear c0 s0 E0.
  pose proof (parse_option_lists_complete co f v N t ls Hls (S (length (f_value f))) _ None r W E ltac:(cbn; lia)) as SND.
  cbn iota in SND. destruct (placed (addr_x (f_address f)) false ls) eqn:P.
  - split.
    + intros _. destruct SND as [l' [SND1 [w [Hw Ev]]]]. unfold parse_cell. rewrite SND1. cbn [bind merged].
      pose proof (lists_cell_spec f _ v ls r P) as C. cbn zeta in C. unfold rest. rewrite Ev, trim_spaces in C by exact Hw.
      rewrite Ev, <- C. reflexivity.
    + intro H. destruct H. apply placed_spec in P. unfold well_placed. rewrite Nat.add_0_r in P. exact P.
  - split.
    + intro H. assert (P' : placed (addr_x (f_address f)) false ls = true).
      { apply placed_spec. rewrite Nat.add_0_r. exact H. }
      congruence.
    + intros _. destruct SND as [e SND1]. exists e. unfold parse_cell. rewrite SND1. reflexivity.
Qed.
