(** * ProgramProofs: the scope a cell is evaluated in, and the meaning of names (for C80). *)
From Verif Require Import Base BaseProofs Csvp SourceCode Ast AstProofs AstLexer AstParser Eval EvalSpec EvalProofs ParsedPlain Options CellParser Sheet SheetSpec SheetProofs SheetProofs2 SheetProofs3 PropSheet
  PropVariables PropDisplay PropEval ProgramSpec.

(** ** One spelling *)
Lemma numeral_dec n : numeral (dec (N.of_nat (S n))) (S n).
Proof.
  split; [apply dec_all_digits|]. split; [apply dec_value|]. destruct (dec_head (N.of_nat (S n)) ltac:(lia)) as [c [r [-> Hc]]]. cbn. congruence.
Qed.
Lemma digits_value_snoc s c : digits_value (s ++ [c]) = (digits_value s * 10 + (c - 48))%N.
Proof. unfold digits_value. rewrite fold_left_app. reflexivity. Qed.
Lemma digit_range c : is_ascii_digit c = true -> (48 <= c <= 57)%N.
Proof. unfold is_ascii_digit. rewrite andb_true_iff, !N.leb_le. auto. Qed.
Lemma digits_pos : forall s, forallb is_ascii_digit s = true -> s <> [] -> hd_error s <> Some 48%N -> (0 < digits_value s)%N.
Proof.
  induction s as [|c s IH] using rev_ind; intros D N0 H; [contradiction|]. rewrite digits_value_snoc. rewrite forallb_app in D. apply andb_true_iff in D as [D1 D2]. cbn in D2. rewrite andb_true_r in D2. apply digit_range in D2.
  destruct s as [|c0 s]; [cbn in H; assert (c <> 48%N) by congruence; cbn; lia|]. assert (0 < digits_value (c0 :: s))%N by (apply IH; [exact D1|discriminate|exact H]). lia.
Qed.
Lemma last_dec {A} (l : list A) : l = [] \/ exists s c, l = s ++ [c].
Proof. destruct l as [|a l] using rev_ind; [left; reflexivity|right; eauto]. Qed.
Lemma digits_inj : forall s s', forallb is_ascii_digit s = true -> forallb is_ascii_digit s' = true -> hd_error s <> Some 48%N -> hd_error s' <> Some 48%N ->
  digits_value s = digits_value s' -> s = s'.
Proof.
  induction s as [|c s IH] using rev_ind; intros s' D D' H H' E.
  - destruct s' as [|c' s']; [reflexivity|]. pose proof (digits_pos (c' :: s') D' ltac:(discriminate) H'). change (digits_value []) with 0%N in E. lia.
  - destruct (last_dec s') as [->|[s0 [c' ->]]].
    + pose proof (digits_pos (s ++ [c]) D ltac:(destruct s; discriminate) H). change (digits_value []) with 0%N in E. lia.
    + rewrite !digits_value_snoc in E. rewrite !forallb_app in D, D'. apply andb_true_iff in D as [D1 D2]. apply andb_true_iff in D' as [D1' D2'].
      cbn in D2, D2'. rewrite andb_true_r in D2, D2'. apply digit_range in D2, D2'. assert (c = c' /\ digits_value s = digits_value s0) as [-> Q] by lia. f_equal. apply IH; auto.
      * destruct s; [discriminate|exact H].
      * destruct s0; [discriminate|exact H'].
Qed.

Lemma numeral_inj b b' n : numeral b n -> numeral b' n -> b = b'.
Proof.
  intros [D [V H]] [D' [V' H']]. assert (Z : forall q, all_digits q = true -> forallb is_ascii_digit q = true) by (intros q Hq; unfold all_digits in Hq; destruct q; [reflexivity|exact Hq]).
  apply digits_inj; auto. congruence.
Qed.
Lemma letters_value_snoc s c : letters_value (s ++ [c]) = (letters_value s * 26 + (c - 64))%N.
Proof. unfold letters_value. rewrite fold_left_app. reflexivity. Qed.
Lemma letters_inj : forall s s', forallb (fun c => (65 <=? c) && (c <=? 90))%N s = true -> forallb (fun c => (65 <=? c) && (c <=? 90))%N s' = true ->
  letters_value s = letters_value s' -> s = s'.
Proof.
  assert (R : forall c, ((65 <=? c) && (c <=? 90))%N = true -> (65 <= c <= 90)%N) by (intro c; rewrite andb_true_iff, !N.leb_le; auto).
  induction s as [|c s IH] using rev_ind; intros s' D D' E.
  - destruct (last_dec s') as [->|[s0 [c' ->]]]; [reflexivity|]. rewrite letters_value_snoc in E. change (letters_value []) with 0%N in E.
    rewrite forallb_app in D'. apply andb_true_iff in D' as [_ D2]. cbn [forallb] in D2. rewrite andb_true_r in D2. apply R in D2. lia.
  - rewrite letters_value_snoc in E. rewrite forallb_app in D. apply andb_true_iff in D as [D1 D2]. cbn [forallb] in D2. rewrite andb_true_r in D2. apply R in D2.
    destruct (last_dec s') as [->|[s0 [c' ->]]]; [change (letters_value []) with 0%N in E; lia|].
    rewrite letters_value_snoc in E. rewrite forallb_app in D'. apply andb_true_iff in D' as [D1' D2']. cbn [forallb] in D2'. rewrite andb_true_r in D2'. apply R in D2'.
    assert (c = c' /\ letters_value s = letters_value s0) as [-> Q] by lia. f_equal. auto.
Qed.
Lemma cell_name_show x y : cell_name (show_address {| addr_x := x; addr_y := y |}) x y.
Proof. exists (col_name x), (row_name y). destruct (col_name_spec x) as [A B]. repeat (split; [assumption || reflexivity|]). apply numeral_dec. Qed.
Lemma cell_name_inj t t' x y : cell_name t x y -> cell_name t' x y -> t = t'.
Proof.
  intros [a [b [-> [[_ L] [V N]]]]] [a' [b' [-> [[_ L'] [V' N']]]]]. f_equal; [apply letters_inj; auto; congruence|eapply numeral_inj; eauto].
Qed.
Lemma rows_name_show y1 y2 : rows_name (show_row_range y1 y2) y1 y2.
Proof. exists (row_name y1), (row_name y2). split; [reflexivity|]. split; apply numeral_dec. Qed.
Lemma rows_name_inj t t' y1 y2 : rows_name t y1 y2 -> rows_name t' y1 y2 -> t = t'.
Proof. intros [a [b [-> [A B]]]] [a' [b' [-> [A' B']]]]. rewrite (numeral_inj _ _ _ A A'), (numeral_inj _ _ _ B B'). reflexivity. Qed.
Lemma column_name_show x y1 y2 : column_name (show_col_range x y1 y2) x y1 y2.
Proof. eexists _, _. split; [reflexivity|]. split; apply cell_name_show. Qed.
Lemma column_name_inj t t' x y1 y2 : column_name t x y1 y2 -> column_name t' x y1 y2 -> t = t'.
Proof. intros [a [b [-> [A B]]]] [a' [b' [-> [A' B']]]]. rewrite (cell_name_inj _ _ _ _ A A'), (cell_name_inj _ _ _ _ B B'). reflexivity. Qed.
Lemma refers_inj rows t here text text' : refers rows t here text -> refers rows t here text' -> text = text'.
Proof.
  intros [r [H K]] [r' [H' K']]. rewrite H in H'. injection H' as <-. cbv zeta in *.
  destruct (row_fill r), t; try (destruct K as [[? K]|[? K]], K' as [[? K']|[? K']]; try contradiction); eauto using cell_name_inj, rows_name_inj, column_name_inj.
Qed.

(** ** Names in the scope of the evaluation *)
Lemma before_asym a b : before a b -> before b a -> False.
Proof. destruct a, b; cbn [before]; lia. Qed.
Lemma last_binding_unique s x t f t' f' : last_binding s x t f -> last_binding s x t' f' -> t = t'.
Proof. intros [A1 A2] [B1 B2]. destruct (A2 _ _ B1) as [->|H1]; [reflexivity|]. destruct (B2 _ _ A1) as [->|H2]; [reflexivity|]. exfalso. eapply before_asym; eauto. Qed.
Lemma last_row rows left i r : nth_error rows i = Some r -> S i = length rows -> offset left rows i + copies left r = total left rows.
Proof.
  intros H L. unfold offset. rewrite <- (firstn_skipn i rows) at 2. rewrite total_app. f_equal. assert (E : skipn i rows = [r]).
  { clear -H L. revert i H L. induction rows as [|a rows IH]; intros [|i] H L; try discriminate H; cbn [length] in L; cbn [skipn].
    - injection H as ->. destruct rows; [reflexivity|discriminate L].
    - apply IH; [exact H|lia]. }
  rewrite E. cbn. lia.
Qed.
Section Names.
  Variables (p p1 : program) (args : list (str * node)).
  Hypothesis U : NoDup (map fst (variables (pr_scope p))).
  Hypothesis Ua : NoDup (map fst args).
  Hypothesis Dv : forall x g, assoc x (variables (pr_scope p)) = Some g -> exists nm v, g = NVar nm (VAst v) /\ plain v.
  Hypothesis Da : forall x e, assoc x args = Some e -> plain e.
  Hypothesis Hf : fills_expanded (pr_sheet p) = false.
  Hypothesis He : module_eval_fills p = Ok p1.
  Hypothesis G : good_fills (sheet_rows (pr_sheet p)).
  Notation rows := (sheet_rows (pr_sheet p)).
  Notation sc := (sheet_scope p1 args).

  Lemma fill_range i r f0 : nth_error rows i = Some r -> row_fill r = Some f0 ->
    let f := {| fill_amount := fill_amount f0; start_row := first_row rows i |} in
    (forall a, fill_contains f a = true <-> first_row rows i <= addr_y a < row_after rows i r) /\ fill_last_row f = row_after rows i r - 1.
  Proof.
    intros Hr Er f. destruct (G i r Hr ltac:(congruence)) as [Hc [Ha Hu]]. destruct (c22_sheet p p1 He) as [E _].
    destruct (C23_expansion _ _ Hf E) as [_ [L [X _]]]. destruct (X _ r 0 Hr Hc) as [c [N [_ [_ [_ C]]]]]. rewrite Er in C. cbn [option_map] in C.
    assert (Hu' : unbounded r -> row_after rows i r = length (sheet_rows (pr_sheet p1))) by (intro Un; rewrite L; apply last_row; auto).
    destruct (C25_extent_partial _ _ i r Hf E Hr Hc Ha Hu' (offset (room rows) rows i + 0) c f ltac:(lia) N C) as [I _]. split; [exact I|].
    cbv zeta in I. change (offset (room rows) rows i + copies (room rows) r) with (row_after rows i r) in I. change (offset (room rows) rows i) with (first_row rows i) in I.
    unfold fill_contains in I. change (start_row f) with (first_row rows i) in I. set (la := fill_last_row f) in *.
    assert (first_row rows i < row_after rows i r) by (unfold row_after; lia). clear -I H.
    pose proof (I {| addr_x := 0; addr_y := la |}) as I1. pose proof (I {| addr_x := 0; addr_y := row_after rows i r - 1 |}) as I2. cbn [addr_y] in *.
    rewrite andb_true_iff, !Nat.leb_le in *. lia.
  Qed.
  Lemma binding_value x t f r pos : assoc x (variables (pr_scope p)) = None -> last_binding (pr_sheet p) x t f -> nth_error rows (target_row t) = Some r ->
    exists text, refers rows t (addr_y pos) text /\ variable_node sc (Some pos) x = Some (Ok (NRef text)).
  Proof.
    intros Hn Hl Hr. assert (Hg : f = row_fill r) by (eapply binds_fill; [exact (proj1 Hl)|exact Hr]). subst f.
    assert (Hc : 0 < copies (room rows) r).
    { destruct (row_fill r) eqn:Er; [apply (G _ _ Hr); congruence|]. unfold copies. rewrite Er. lia. }
    pose proof (c22_value p p1 args U Ua Hf He x t _ r Hn Hl Hr Hc) as V. change (offset (room rows) rows (target_row t)) with (first_row rows (target_row t)) in V.
    unfold variable_node. rewrite V. destruct (row_fill r) as [f0|] eqn:Er; cbn [started option_map].
    - destruct (fill_range _ _ _ Hr Er) as [I LR]. set (f := {| fill_amount := fill_amount f0; start_row := first_row rows (target_row t) |}) in *.
      assert (SR : start_row f = first_row rows (target_row t)) by reflexivity.
      destruct t as [y|cx y]; cbn [move value_at into_ast target_row] in *; destruct (fill_contains f pos) eqn:FC; eexists; (split; [|reflexivity]); exists r; (split; [exact Hr|]); cbv zeta; rewrite Er.
      + left. split; [apply I; exact FC|apply rows_name_show].
      + right. split; [intro B; apply I in B; congruence|]. rewrite SR, LR. apply rows_name_show.
      + left. split; [apply I; exact FC|apply cell_name_show].
      + right. split; [intro B; apply I in B; congruence|]. rewrite SR, LR. apply column_name_show.
    - assert (Cp : copies (room rows) r = 1) by (unfold copies; rewrite Er; reflexivity). rewrite Cp in *. rewrite Nat.sub_diag, Nat.add_0_r in *.
      destruct t as [y|cx y]; cbn [move value_at into_ast target_row] in *; eexists; (split; [|reflexivity]); exists r; (split; [exact Hr|]); cbv zeta; rewrite Er.
      + apply rows_name_show.
      + apply cell_name_show.
  Qed.
  Lemma scope_functions : functions sc = functions (pr_scope p).
  Proof. destruct (c22_sheet p p1 He) as [_ S1]. unfold sheet_scope. cbn. rewrite S1. reflexivity. Qed.
  Lemma scope_cases x : assoc x (variables (pr_scope p)) = None -> (forall t f, ~ binds (pr_sheet p) x t f) -> assoc x (variables sc) = assoc x args.
  Proof.
    intros Hn Hb. destruct (c22_sheet p p1 He) as [E S1]. rewrite sheet_scope_assoc by (rewrite ?S1; assumption). rewrite S1, Hn. rewrite sheet_variables_none; [reflexivity|].
    intros t f B. destruct (binds_expanded _ _ E Hf _ _ _ B) as [i [r' [k [A [_ [_ [D _]]]]]]]. exact (Hb _ _ D).
  Qed.
  Lemma arg_node x e pos : assoc x (variables sc) = Some e -> plain e -> variable_node sc (Some pos) x = Some (Ok e).
  Proof. intros H P. unfold variable_node. rewrite H. destruct e; try reflexivity. contradiction. Qed.
  Theorem value_of_node x v pos : value_of p args (addr_y pos) x v -> variable_node sc (Some pos) x = Some (Ok v).
  Proof.
    destruct (c22_sheet p p1 He) as [E S1]. intros [nm e H|t f text Hn Hl Hr|e Hn Hb Ha].
    - unfold variable_node. rewrite sheet_scope_assoc by (rewrite ?S1; assumption). rewrite S1, H. reflexivity.
    - assert (exists r, nth_error rows (target_row t) = Some r) as [r Nr] by (destruct Hr as [r [Q _]]; exists r; exact Q).
      destruct (binding_value x t f r pos Hn Hl Nr) as [text' [Hr' ->]]. rewrite (refers_inj _ _ _ _ _ Hr Hr'). reflexivity.
    - apply arg_node; [rewrite scope_cases; assumption|eauto].
  Qed.
  Lemma binds_dec x : (exists t f, binds (pr_sheet p) x t f) \/ forall t f, ~ binds (pr_sheet p) x t f.
  Proof.
    destruct (in_dec (list_eq_dec N.eq_dec) x (map snd (events 0 rows))) as [I|I].
    - left. apply in_map_iff in I as [[[t f] x'] [Q I]]. cbn in Q. subst x'. exists t, f. apply events_binds. exact I.
    - right. intros t f B. apply I. apply in_map_iff. exists (t, f, x). split; [reflexivity|]. apply events_binds. exact B.
  Qed.
  Theorem node_value_of x o pos : variable_node sc (Some pos) x = Some o -> exists v, o = Ok v /\ value_of p args (addr_y pos) x v.
  Proof.
    destruct (c22_sheet p p1 He) as [E S1]. intro H. destruct (assoc x (variables (pr_scope p))) as [g|] eqn:Hn.
    - destruct (Dv _ _ Hn) as [nm [v [-> _]]]. exists v. unfold variable_node in H. rewrite sheet_scope_assoc in H by (rewrite ?S1; assumption). rewrite S1, Hn in H. cbn [into_ast] in H. split; [congruence|]. eapply v_code. exact Hn.
    - destruct (binds_dec x) as [[t [f B]]|Hb].
      + destruct (last_binding_exists _ _ _ _ B) as [t' [f' Hl]]. assert (exists r, nth_error rows (target_row t') = Some r) as [r Nr].
        { destruct Hl as [Hb _]. destruct t'; cbn [binds target_row] in *; [destruct Hb as [r [Q _]]|destruct Hb as [r [c [Q _]]]]; exists r; exact Q. }
        destruct (binding_value x t' f' r pos Hn Hl Nr) as [text [R V]]. rewrite V in H. injection H as <-. exists (NRef text). split; [reflexivity|]. eapply v_sheet; eauto.
      + assert (exists e, assoc x args = Some e) as [e Q].
        { unfold variable_node in H. rewrite scope_cases in H by assumption. destruct (assoc x args) as [e|]; [eauto|discriminate]. }
        rewrite (arg_node x e) in H; [|rewrite scope_cases; assumption|eauto]. injection H as <-. exists e. split; [reflexivity|]. apply v_arg; assumption.
  Qed.
  Lemma no_value_node x pos : (forall v, ~ value_of p args (addr_y pos) x v) <-> assoc x (variables sc) = None.
  Proof.
    split; intro H.
    - destruct (assoc x (variables sc)) as [g|] eqn:Q; [exfalso|reflexivity]. assert (exists o, variable_node sc (Some pos) x = Some o) as [o V].
      { unfold variable_node. rewrite Q. destruct g; eauto. }
      destruct (node_value_of _ _ _ V) as [v [_ W]]. exact (H v W).
    - intros v W. apply value_of_node in W. unfold variable_node in W. rewrite H in W. discriminate.
  Qed.
  (** the two notions of meaning *)
  Theorem expands_means pos n m : expands sc (Some pos) n m -> means p args (addr_y pos) n m.
  Proof.
    intro D. induction D using expands_induction.
    - apply m_leaf. assumption.
    - destruct (node_value_of _ _ _ H) as [v' [Q W]]. injection Q as <-. eapply m_name; eauto.
    - apply m_unknown. apply no_value_node. assumption.
    - apply m_infix; assumption.
    - rewrite scope_functions in H. eapply m_call; eauto.
    - rewrite scope_functions in H. apply m_other_call; assumption.
  Qed.
  Theorem means_expands pos : forall n m, means p args (addr_y pos) n m -> expands sc (Some pos) n m.
  Proof.
    fix IH 3. intros n m D. destruct D as [n L|x v m W D|x W|l l' op r r' D1 D2|f es ps body nm m A L D|f es ms A F].
    - apply x_leaf. exact L.
    - eapply x_variable; [apply value_of_node; exact W|apply IH; exact D].
    - apply x_name. apply (no_value_node x pos). exact W.
    - apply x_infix; apply IH; assumption.
    - eapply x_call; [rewrite scope_functions; exact A|exact L|apply IH; exact D].
    - apply x_other_call; [rewrite scope_functions; exact A|]. clear A. revert es ms F. fix IH2 3. intros es ms F. destruct F as [|a b es ms H F]; constructor; [apply IH; exact H|apply IH2; exact F].
  Qed.
  Lemma finished_known pos n : finished p args (addr_y pos) n <-> nothing_known sc n.
  Proof.
    unfold finished, nothing_known. rewrite scope_functions. split; intros [A B]; split; auto.
    - intros x Hx. apply (no_value_node x pos). intros v. apply A. exact Hx.
    - intros x v Hx. apply (no_value_node x pos). auto.
  Qed.
End Names.
