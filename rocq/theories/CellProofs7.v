(** * CellProofs7: option lists and cells. *)
From Verif Require Import Base BaseProofs Csvp Ast AstLexer AstParser AstLexerProofs Options CellLexer CellParser CellSpec CellProofs CellProofs2 CellProofs3 CellProofs4 CellProofs5 CellProofs6.
From Coq Require Import ZifyBool ZifyN.

Ltac names H :=
  apply match_str_In in H;
  let ps := fresh "ps" in let H1 := fresh "H1" in let H2 := fresh "H2" in
  destruct H as [ps [H1 H2]]; cbn [In] in H1;
  repeat (destruct H1 as [H1|H1]; [first [discriminate H1 | inversion H1; subst ps; clear H1; exact H2]|]); contradiction.
Lemma kind_to_opt co strict is_row n k t o : okind_of n = Some k -> kind_text co strict is_row k t o -> opt_text co strict is_row (n ++ t) o.
Proof.
  intros Hk H. unfold okind_of in Hk. destruct k; cbn [kind_text] in H.
  - destruct H as [w [v [-> [Ha [Hw Hv]]]]]. eapply ot_border; eauto; [names Hk|apply border_side_table; exact Hv].
  - destruct H as [w [v [-> [Ha Hv]]]]. eapply ot_border_color; eauto. names Hk.
  - destruct H as [w [v [-> [Ha [Hw Hv]]]]]. eapply ot_border_style; eauto; [names Hk|apply border_style_table; exact Hv].
  - destruct H as [w [v [-> [Ha Hv]]]]. eapply ot_color; eauto. names Hk.
  - destruct H as [w [v [-> [Ha Hv]]]]. eapply ot_validate; eauto. names Hk.
  - destruct H as [Hr [[-> ->]|[w [m [-> [Ha [q [Hq [Hl ->]]]]]]]]].
    + rewrite app_nil_r. apply ot_fill; [exact Hr|]. names Hk.
    + eapply ot_fill_amount; eauto. names Hk.
  - destruct H as [w [v [-> [Ha Hv]]]]. eapply ot_font_color; eauto. names Hk.
  - destruct H as [w [v [-> [Ha Hv]]]]. eapply ot_font_family; eauto. names Hk.
  - destruct H as [w [v [-> [Ha [q [Hq [Hl ->]]]]]]]. eapply ot_font_size; eauto. names Hk.
  - destruct H as [w [v [-> [Ha [Hw Hv]]]]]. eapply ot_halign; eauto; [names Hk|apply halign_table; exact Hv].
  - destruct H as [-> ->]. rewrite app_nil_r. apply ot_lock. names Hk.
  - destruct H as [w [v [-> [Ha Hv]]]]. eapply ot_note; eauto. names Hk.
  - destruct H as [w [v [-> [Ha [Hw Hv]]]]]. eapply ot_number_format; eauto; [names Hk|apply number_format_table; exact Hv].
  - destruct H as [w [v [-> [Ha [Hw Hv]]]]]. eapply ot_text; eauto; [names Hk|apply text_format_table; exact Hv].
  - destruct H as [w [v [-> [Ha [<- Hv]]]]]. eapply ot_var; eauto. names Hk.
  - destruct H as [w [v [-> [Ha [Hw Hv]]]]]. eapply ot_valign; eauto; [names Hk|apply valign_table; exact Hv].
  - destruct H as [w [v [-> [Ha [Hw Hv]]]]]. eapply ot_wrap; eauto; [names Hk|apply wrap_table; exact Hv].
Qed.
Definition option_name (n : str) : Prop := n <> [] /\ forallb is_ascii_alnum n = true.
Definition name_end (t : str) : Prop := t = [] \/ exists w b, spaces w /\ t = w ++ [c_eq] ++ b.
Lemma assigns_name_end t w : assigns t w -> name_end t.
Proof. intros [w1 [w2 [-> [H1 H2]]]]. right. eauto. Qed.
Ltac of_names H := unfold one_of in H; cbn [map In] in H; repeat (destruct H as [H|H]; [rewrite <- H; reflexivity|]); contradiction.
Ltac name_ok H := unfold one_of in H; cbn [map In] in H; repeat (destruct H as [H|H]; [rewrite <- H; split; [discriminate|reflexivity]|]); contradiction.
Lemma opt_to_kind co strict is_row x o : opt_text co strict is_row x o ->
  exists n k t, x = n ++ t /\ option_name n /\ name_end t /\ okind_of n = Some k /\ kind_text co strict is_row k t o.
Proof.
  intro H. destruct H.
  Ltac go k := match goal with n : list N, t : list N |- exists _ _ _, ?n' ++ ?t' = _ /\ _ => exists n', k, t' end;
    (split; [reflexivity|]); (split; [match goal with H : one_of _ _ |- _ => name_ok H end|]);
    (split; [match goal with H : assigns _ _ |- _ => eapply assigns_name_end; exact H end|]);
    (split; [match goal with H : one_of _ _ |- _ => of_names H end|]); cbn [kind_text].
  - go KBorder. exists w, v. repeat (split; auto). apply border_side_table; assumption.
  - go KBorderColor. eauto.
  - go KBorderStyle. exists w, v. repeat (split; auto). apply border_style_table; assumption.
  - go KCellColor. eauto.
  - go KValidate. eauto.
  - exists n, KFill, []. split; [rewrite app_nil_r; reflexivity|]. split; [name_ok H0|]. split; [left; reflexivity|].
    split; [of_names H0|]. cbn. auto.
  - go KFill. split; [assumption|]. right. exists w, (N.to_nat k). unfold unsigned_text. eauto 10.
  - go KFontColor. eauto.
  - go KFontFamily. eauto.
  - go KFontSize. exists w, (N.to_nat k). unfold unsigned_text. eauto 10.
  - go KHalign. exists w, v. repeat (split; auto). apply halign_table; assumption.
  - exists n, KLock, []. split; [rewrite app_nil_r; reflexivity|]. split; [name_ok H|]. split; [left; reflexivity|].
    split; [of_names H|]. cbn. auto.
  - go KNote. eauto.
  - go KNumberFormat. exists w, v. repeat (split; auto). apply number_format_table; assumption.
  - go KText. exists w, v. repeat (split; auto). apply text_format_table; assumption.
  - go KVar. exists w, w. unfold word_text. auto.
  - go KValign. exists w, v. repeat (split; auto). apply valign_table; assumption.
  - go KWrap. exists w, v. repeat (split; auto). apply wrap_table; assumption.
Qed.

(** ** One option with the spaces around it *)
Lemma parse_option_sound co is_row f l : wf f l ->
  match parse_option co is_row f l with
  | Ok (o, l') => wf f l' /\ exists w x w', spaces w /\ spaces w' /\ cl_input l = w ++ x ++ w' ++ cl_input l'
      /\ opt_text co false is_row x o /\ x <> []
  | Err _ => True | Panic | NoFuel => False
  end.
Proof.
  intro H. unfold parse_option, take_option_name.
  pose proof (take_while_ok f l KOptionName (is_alnum (co_unicode co)) H (alnum_not_ws _)) as T.
  destruct (take_while f l KOptionName (is_alnum (co_unicode co))) as [[name l1]| | |]; cbn [bind]; auto.
  destruct T as [W1 [Ht [_ [[w [Hw E]] [Hn _]]]]].
  pose proof (or_error_spec f name MUnknownOption (okind_of (ct_text name)) Ht) as O.
  destruct (or_error f name MUnknownOption (okind_of (ct_text name))) as [k| | |]; cbn [bind]; auto.
  pose proof (option_value_sound co is_row k name f l1 W1 Ht) as S.
  destruct (option_value co is_row k name f l1) as [[o l2]| | |]; auto.
  destruct S as [W2 [t [E2 [y [w' [-> [Hw' Hk]]]]]]]. split; [exact W2|].
  exists w, (ct_text name ++ y), w'. split; [exact Hw|]. split; [exact Hw'|]. split; [rewrite E, E2, <- !app_assoc; reflexivity|].
  split; [apply (kind_to_opt co false is_row _ k); assumption|]. destruct (ct_text name); [congruence|discriminate].
Qed.
Lemma parse_option_complete co is_row f l w x o r : wf f l -> cl_input l = w ++ x ++ r -> spaces w ->
  opt_text co true is_row x o -> stop_opt r ->
  exists l', parse_option co is_row f l = Ok (o, l') /\ rest_of l' r /\ wf f l'.
Proof.
  intros H E Hw Hx Hr. destruct (opt_to_kind co true is_row x o Hx) as [n [k [t [-> [[Hn Hf] [Ht [Hk Ho]]]]]]].
  rewrite <- !app_assoc in E.
  assert (A : ascii n /\ ascii (t ++ r)).
  { destruct (wf_ascii_app f l w _ H E) as [_ A]. apply ascii_app in A. exact A. }
  destruct A as [An Atr].
  destruct (take_while_complete f l KOptionName (is_alnum (co_unicode co)) w n (t ++ r) H E Hw (alnum_not_ws _) Hn)
    as [name [l1 [X1 [X2 [X3 [X4 [X5 X6]]]]]]].
  - rewrite forallb_ascii_alnum by exact An. exact Hf.
  - assert (Z : match t ++ r with c :: _ => is_ascii_alnum c = false | [] => True end).
    { destruct Ht as [->|[v [b [Hv ->]]]].
      - cbn [app]. destruct Hr as [Hr _]. destruct r as [|c r]; [exact I|]. cbn in Hr.
        unfold stop_char, is_ws, is_ascii_alnum, is_ascii_alpha, is_ascii_upper, is_ascii_lower, is_ascii_digit, c_rparen, c_rbracket, c_slash in *. lia.
      - destruct v as [|c v]; [reflexivity|]. cbn. unfold spaces in Hv. cbn in Hv. apply andb_true_iff in Hv as [Hv _].
        unfold is_ws, is_ascii_alnum, is_ascii_alpha, is_ascii_upper, is_ascii_lower, is_ascii_digit in *. lia. }
    destruct (t ++ r) as [|c q]; [exact I|]. apply ascii_cons in Atr as [Ac _]. rewrite ascii_not_ws_alnum by exact Ac. exact Z.
  - unfold parse_option, take_option_name. rewrite X1. cbn [bind]. rewrite X4, Hk. cbn [or_error bind].
    apply (option_value_complete co is_row k name f l1 t o r X3 X2 Ho Hr).
Qed.

(** ** The options between brackets *)
Definition run (is_row : bool) (f : field) (os : list opt) (s : cell * row) : cell * row :=
  fold_left (fun s o => assign is_row f o s) os s.
Lemma options_lead co strict is_row w x os : spaces w -> options_text co strict is_row x os -> options_text co strict is_row (w ++ x) os.
Proof.
  intros Hw [v t o w' Hv Ht Hw'|v t o w' r os' Hv Ht Hs Hr]; rewrite app_assoc; constructor; auto; apply spaces_app; auto.
Qed.
Lemma parse_cell_options_sound co is_row f : forall n l s, wf f l -> length (cl_input l) < n ->
  match parse_cell_options n co is_row f l s with
  | Ok (s', l') => wf f l' /\ exists x os, cl_input l = x ++ cl_input l' /\ options_text co false is_row x os /\ s' = run is_row f os s
  | Err _ => True | Panic | NoFuel => False
  end.
Proof.
  induction n as [|n IH]; intros l s H Hl; [lia|]. cbn [parse_cell_options].
  pose proof (parse_option_sound co is_row f l H) as T. destruct (parse_option co is_row f l) as [[o l1]| | |]; cbn [bind]; auto.
  destruct T as [W1 [w [x [w' [Hw [Hw' [E [Hx Hn]]]]]]]].
  assert (L1 : length (cl_input l1) < length (cl_input l)).
  { rewrite E, !app_length. destruct x; [congruence|cbn; lia]. }
  pose proof (maybe_take_ok f l1 (lit "/") W1) as M. destruct (maybe_take l1 (lit "/")) as [[l2|] l0].
  - destruct M as [W2 [w2 [Hw2 E2]]]. specialize (IH l2 (assign is_row f o s) W2).
    assert (L2 : length (cl_input l2) < n) by (rewrite E2, !app_length in L1; cbn in *; lia). specialize (IH L2).
    destruct (parse_cell_options n co is_row f l2 (assign is_row f o s)) as [[s' l3]| | |]; auto.
    destruct IH as [W3 [y [os [E3 [Hy Es]]]]]. split; [exact W3|]. exists (w ++ x ++ ((w' ++ w2) ++ [c_slash]) ++ y), (o :: os).
    split; [rewrite E, E2, E3, <- !app_assoc; reflexivity|]. split; [|exact Es].
    apply os_more; auto. right. exists (w' ++ w2). split; [reflexivity|]. apply spaces_app. auto.
  - destruct M as [W0 [_ [[w2 [Hw2 E2]] _]]].
    pose proof (maybe_take_ok f l0 (lit "]]") W0) as M. destruct (maybe_take l0 (lit "]]")) as [[l2|] l0'].
    + destruct M as [W2 [w3 [Hw3 E3]]]. split; [exact W2|]. exists (w ++ x ++ (w' ++ w2 ++ w3) ++ lit "]]"), [o].
      split; [rewrite E, E2, E3, <- !app_assoc; reflexivity|]. split; [|reflexivity].
      apply os_last; auto. rewrite !spaces_app. auto.
    + destruct M as [W2 [_ [[w3 [Hw3 E3]] _]]]. specialize (IH l0' (assign is_row f o s) W2).
      assert (L2 : length (cl_input l0') < n) by (rewrite E2, E3, !app_length in L1; lia). specialize (IH L2).
      destruct (parse_cell_options n co is_row f l0' (assign is_row f o s)) as [[s' l4]| | |]; auto.
      destruct IH as [W3 [y [os [E4 [Hy Es]]]]]. split; [exact W3|]. exists (w ++ x ++ (w' ++ w2 ++ w3) ++ y), (o :: os).
      split; [rewrite E, E2, E3, E4, <- !app_assoc; reflexivity|]. split; [|exact Es].
      apply os_more; auto. left. split; [rewrite !spaces_app; auto|discriminate].
Qed.

Lemma maybe_take_done f l w sub r : wf f l -> rest_of l (w ++ sub ++ r) -> spaces w -> sub <> [] -> head_not_ws sub ->
  exists l' l0, maybe_take l sub = (Some l', l0) /\ cl_input l' = r /\ wf f l'.
Proof.
  intros H [v [Hv E]] Hw Hs Hh. unfold maybe_take. destruct (wf_take_ws f l H) as [W _].
  assert (X : cl_input (take_whitespace l) = sub ++ r).
  { cbn. rewrite <- (trim_start_spaces v) by exact Hv. rewrite <- E, trim_start_spaces by exact Hw. apply trim_start_id.
    destruct sub; [congruence|exact Hh]. }
  rewrite X, strip_prefix_app. do 2 eexists. split; [reflexivity|]. split; [reflexivity|]. apply (wf_step f _ sub r W X).
Qed.
Lemma maybe_take_fail f l w sub q : wf f l -> rest_of l (w ++ q) -> spaces w -> head_not_ws q -> strip_prefix sub q = None ->
  exists l', maybe_take l sub = (None, l') /\ rest_of l' (w ++ q) /\ wf f l'.
Proof.
  intros H [v [Hv E]] Hw Hq Hs. unfold maybe_take. destruct (wf_take_ws f l H) as [W [w2 [Hw2 [E2 _]]]].
  assert (X : cl_input (take_whitespace l) = q).
  { cbn. rewrite <- (trim_start_spaces v) by exact Hv. rewrite <- E, trim_start_spaces by exact Hw. apply trim_start_id. exact Hq. }
  rewrite X, Hs. eexists. split; [reflexivity|]. split; [|exact W]. exists w. rewrite X. auto.
Qed.
Lemma opt_head co strict is_row x o : opt_text co strict is_row x o -> exists c x', x = c :: x' /\ is_ascii_alnum c = true.
Proof.
  intro H. destruct (opt_to_kind co strict is_row x o H) as [n [k [t [-> [[Hn Hf] _]]]]].
  destruct n as [|c n]; [congruence|]. cbn in Hf. apply andb_true_iff in Hf as [Hf _]. cbn. eauto.
Qed.
Lemma options_head co strict is_row x os : options_text co strict is_row x os ->
  exists w c x', spaces w /\ x = w ++ c :: x' /\ is_ascii_alnum c = true.
Proof.
  intros [v t o w' Hv Ht Hw'|v t o w' r os' Hv Ht Hs Hr]; destruct (opt_head co strict is_row t o Ht) as [c [t' [-> Hc]]]; cbn [app]; eauto 8.
Qed.
Lemma stop_opt_spaces w c r : spaces w -> w <> [] \/ stop_char c = true -> is_ws c = false -> c <> c_eq -> stop_opt (w ++ c :: r).
Proof.
  intros Hw Hn Hc He. split.
  - destruct w as [|x w]; cbn; [destruct Hn as [?|?]; [congruence|assumption]|]. unfold spaces in Hw. cbn in Hw.
    apply andb_true_iff in Hw as [Hw _]. unfold stop_char. rewrite Hw. reflexivity.
  - rewrite trim_start_spaces by exact Hw. rewrite trim_start_id by exact Hc. cbn [strip_prefix]. destruct (N.eqb_spec c_eq c); [congruence|reflexivity].
Qed.
Lemma alnum_head_facts c : is_ascii_alnum c = true -> is_ws c = false /\ c <> c_eq /\ c <> c_slash /\ c <> c_rbracket.
Proof.
  unfold is_ascii_alnum, is_ascii_alpha, is_ascii_upper, is_ascii_lower, is_ascii_digit, is_ws, c_eq, c_slash, c_rbracket. lia.
Qed.
Lemma parse_cell_options_complete co is_row f : forall x os, options_text co true is_row x os ->
  forall n l s r, wf f l -> rest_of l (x ++ r) \/ cl_input l = x ++ r -> length (cl_input l) < n ->
  exists l', parse_cell_options n co is_row f l s = Ok (run is_row f os s, l') /\ cl_input l' = r /\ wf f l'.
Proof.
  assert (NORM : forall l w t q, rest_of l ((w ++ t ++ q)) \/ cl_input l = w ++ t ++ q -> spaces w ->
     (exists c t', t = c :: t' /\ is_ascii_alnum c = true) -> exists w', spaces w' /\ cl_input l = w' ++ t ++ q).
  { intros l w t q [[v [Hv E]]|E] Hw [c [t' [-> Hc]]]; [|eauto]. apply alnum_head_facts in Hc as [Hc _].
    destruct (trim_start_split (cl_input l)) as [u [Hu Eu]]. exists u. split; [exact Hu|]. rewrite Eu. f_equal.
    assert (T : trim_start (v ++ cl_input l) = trim_start (w ++ (c :: t') ++ q)) by (rewrite E; reflexivity).
    rewrite trim_start_spaces in T by exact Hv. rewrite trim_start_spaces in T by exact Hw. rewrite T. apply trim_start_id. exact Hc. }
  intros x os Hx. induction Hx as [w t o w' Hw Ht Hw'|w t o w' y os Hw Ht Hs Hy IH]; intros n l s r H E Hn.
  - rewrite <- !app_assoc in E. destruct (NORM _ _ _ _ E Hw (opt_head _ _ _ _ _ Ht)) as [v [Hv E1]].
    destruct n as [|n]; [lia|]. cbn [parse_cell_options].
    destruct (parse_option_complete co is_row f l v t o _ H E1 Hv Ht) as [l1 [X1 [X2 X3]]].
    { apply (stop_opt_spaces w' c_rbracket (lit "]" ++ r)); auto; discriminate. }
    rewrite X1. cbn [bind].
    destruct (maybe_take_fail f l1 w' (lit "/") (lit "]]" ++ r) X3 X2 Hw' eq_refl eq_refl) as [l2 [Y1 [Y2 Y3]]]. rewrite Y1.
    destruct (maybe_take_done f l2 w' (lit "]]") r Y3 Y2 Hw' ltac:(discriminate) eq_refl) as [l3 [l0 [Z1 [Z2 Z3]]]]. rewrite Z1. eauto.
  - rewrite <- !app_assoc in E. destruct (NORM _ _ _ _ E Hw (opt_head _ _ _ _ _ Ht)) as [v [Hv E1]].
    destruct (options_head _ _ _ _ _ Hy) as [u [c [y' [Hu [Ey Hc]]]]]. pose proof (alnum_head_facts c Hc) as [C1 [C2 [C3 C4]]].
    destruct n as [|n]; [lia|]. cbn [parse_cell_options].
    assert (LEN : forall l1, rest_of l1 (w' ++ y ++ r) -> length (cl_input l1) < n).
    { intros l1 [q [_ Eq]]. destruct (opt_head _ _ _ _ _ Ht) as [d [t' [-> _]]].
      assert (length (cl_input l1) <= length (w' ++ y ++ r)) by (rewrite Eq, app_length; lia).
      rewrite E1, !app_length in Hn. cbn [length] in Hn. rewrite !app_length in *. lia. }
    destruct Hs as [[Hg Hg2]|[z [-> Hz]]].
    + destruct (parse_option_complete co is_row f l v t o (w' ++ y ++ r) H E1 Hv Ht) as [l1 [X1 [X2 X3]]].
      { rewrite Ey, <- app_assoc, app_assoc. cbn [app]. apply stop_opt_spaces; auto; [apply spaces_app; auto|].
        left. specialize (Hg2 eq_refl). destruct w'; [congruence|discriminate]. }
      rewrite X1. cbn [bind].
      assert (R2 : rest_of l1 ((w' ++ u) ++ c :: y' ++ r)).
      { rewrite Ey in X2. rewrite <- !app_assoc in *. exact X2. }
      assert (HW : spaces (w' ++ u)) by (apply spaces_app; auto).
      assert (S1 : strip_prefix (lit "/") (c :: y' ++ r) = None).
      { change (lit "/") with [c_slash]. cbn [strip_prefix]. destruct (N.eqb_spec c_slash c); [congruence|reflexivity]. }
      assert (S2 : strip_prefix (lit "]]") (c :: y' ++ r) = None).
      { change (lit "]]") with [c_rbracket; c_rbracket]. cbn [strip_prefix]. destruct (N.eqb_spec c_rbracket c); [congruence|reflexivity]. }
      destruct (maybe_take_fail f l1 (w' ++ u) (lit "/") (c :: y' ++ r) X3 R2 HW C1 S1) as [l2 [Y1 [Y2 Y3]]]. rewrite Y1.
      destruct (maybe_take_fail f l2 (w' ++ u) (lit "]]") (c :: y' ++ r) Y3 Y2 HW C1 S2) as [l3 [Z1 [Z2 Z3]]]. rewrite Z1.
      assert (R3 : rest_of l3 (w' ++ y ++ r)).
      { rewrite Ey. rewrite <- !app_assoc in *. exact Z2. }
      destruct (IH n l3 (assign is_row f o s) r Z3) as [l4 [V1 [V2 V3]]].
      * left. destruct R3 as [q [Hq Eq]]. destruct (trim_start_split (cl_input l3)) as [p [Hp Ep]].
        exists (u). split; [exact Hu|].
        assert (T : trim_start (q ++ cl_input l3) = trim_start (w' ++ y ++ r)) by (rewrite Eq; reflexivity).
        rewrite trim_start_spaces in T by exact Hq. rewrite trim_start_spaces in T by exact Hg.
        assert (X : cl_input l3 = c :: y' ++ r).
        { unfold maybe_take in Z1. destruct (strip_prefix (lit "]]") (cl_input (take_whitespace l2))); [discriminate|]. inversion Z1; subst l3.
          cbn [take_whitespace cl_input]. cbn [take_whitespace cl_input] in T.
          rewrite (trim_start_id (trim_start (cl_input l2)) (CellProofs.trim_start_head _)) in T. rewrite T, Ey, <- app_assoc.
          rewrite trim_start_spaces by exact Hu. apply trim_start_id. exact C1. }
        rewrite X, Ey, <- app_assoc. reflexivity.
      * apply LEN. exact R3.
      * rewrite V1. eauto.
    + destruct (parse_option_complete co is_row f l v t o ((z ++ [c_slash]) ++ y ++ r) H E1 Hv Ht) as [l1 [X1 [X2 X3]]].
      { rewrite <- !app_assoc. apply (stop_opt_spaces z c_slash (y ++ r)); auto; discriminate. }
      rewrite X1. cbn [bind]. pose proof (LEN l1 X2) as L1. rewrite <- !app_assoc in X2.
      destruct (maybe_take_done f l1 z (lit "/") (y ++ r) X3 X2 Hz ltac:(discriminate) eq_refl) as [l2 [l0 [Y1 [Y2 Y3]]]]. rewrite Y1.
      destruct (IH n l2 (assign is_row f o s) r Y3) as [l4 [V1 [V2 V3]]]; [right; exact Y2| |rewrite V1; eauto].
      unfold maybe_take in Y1. destruct (strip_prefix (lit "/") (cl_input (take_whitespace l1))) as [q|] eqn:Q; [|discriminate].
      inversion Y1; subst l2. cbn [cl_input]. apply strip_prefix_spec in Q. destruct (wf_take_ws f l1 X3) as [_ [p [_ [Ep _]]]].
      rewrite Ep, Q, !app_length in L1. cbn [length lit] in L1. lia.
Qed.
