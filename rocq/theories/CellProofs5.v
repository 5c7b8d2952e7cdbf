(** * CellProofs5: validations, options and option lists. *)
From Verif Require Import Base BaseProofs Csvp Ast AstLexer AstParser AstLexerProofs Options CellLexer CellParser CellSpec CellProofs CellProofs2 CellProofs3 CellProofs4.
From Coq Require Import ZifyBool ZifyN.

(** ** Tables *)
Lemma match_str_In {A} s (arms : list (list str * A)) v : match_str s arms = Some v -> exists ps, In (ps, v) arms /\ In s ps.
Proof.
  induction arms as [|[ps w] arms IH]; [discriminate|]. cbn [match_str]. destruct (str_in s ps) eqn:E.
  - intro H. inversion H; subst. apply str_in_spec in E. exists ps. split; [left; reflexivity|exact E].
  - intro H. apply IH in H as [qs [H1 H2]]. exists qs. split; [right; exact H1|exact H2].
Qed.
Ltac in_table := unfold spelled; cbn [map]; repeat first [left; reflexivity | right].
Ltac from_match H :=
  apply match_str_In in H;
  let ps := fresh "ps" in let H1 := fresh "H1" in let H2 := fresh "H2" in
  destruct H as [ps [H1 H2]]; cbn [In] in H1;
  repeat (destruct H1 as [H1|H1]; [inversion H1; subst; clear H1; cbn [In] in H2;
    repeat (destruct H2 as [H2|H2]; [subst; in_table|]); contradiction|]);
  contradiction.
Ltac to_match H :=
  unfold spelled in H; cbn [map In] in H;
  repeat (destruct H as [H|H]; [inversion H; subst; reflexivity|]); contradiction.
Lemma border_side_table s v : border_side_of s = Some v <-> spelled border_names s v.
Proof. split; intro H; [from_match H|to_match H]. Qed.
Lemma border_style_table s v : border_style_of s = Some v <-> spelled border_style_names s v.
Proof. split; intro H; [from_match H|to_match H]. Qed.
Lemma halign_table s v : horizontal_align_of s = Some v <-> spelled halign_names s v.
Proof. split; intro H; [from_match H|to_match H]. Qed.
Lemma valign_table s v : vertical_align_of s = Some v <-> spelled valign_names s v.
Proof. split; intro H; [from_match H|to_match H]. Qed.
Lemma number_format_table s v : number_format_of s = Some v <-> spelled number_format_names s v.
Proof. split; intro H; [from_match H|to_match H]. Qed.
Lemma text_format_table s v : text_format_of s = Some v <-> spelled text_format_names s v.
Proof. split; intro H; [from_match H|to_match H]. Qed.
Lemma wrap_table s v : text_wrap_of s = Some v <-> spelled wrap_names s v.
Proof. split; intro H; [from_match H|to_match H]. Qed.

(** ** Combinators *)
Definition p_sound {A} (p : parser A) (R : str -> A -> Prop) : Prop := forall f l, wf f l ->
  match p f l with
  | Ok (a, l') => wf f l' /\ exists t, cl_input l = t ++ cl_input l' /\ R t a
  | Err _ => True | Panic | NoFuel => False
  end.
Definition p_complete {A} (p : parser A) (st : str -> Prop) (R : str -> A -> Prop) : Prop := forall f l t a r,
  wf f l -> cl_input l = t ++ r -> R t a -> st r -> exists l', p f l = Ok (a, l') /\ cl_input l' = r /\ wf f l'.

Lemma pmap_sound {A B} (g : A -> B) p R : p_sound p R -> p_sound (pmap g p) (fun t b => exists a, b = g a /\ R t a).
Proof.
  intros H f l W. unfold pmap. specialize (H f l W). destruct (p f l) as [[a l']| | |]; auto. cbn [bind].
  destruct H as [W' [t [E Ht]]]. eauto 8.
Qed.
Lemma pmap_complete {A B} (g : A -> B) p st R : p_complete p st R -> p_complete (pmap g p) st (fun t b => exists a, b = g a /\ R t a).
Proof.
  intros H f l t b r W E [a [-> Ht]] Hr. destruct (H f l t a r W E Ht Hr) as [l' [X1 [X2 X3]]].
  unfold pmap. rewrite X1. cbn [bind]. eauto.
Qed.
Lemma pret_sound {A} (a : A) : p_sound (pret a) (fun t b => t = [] /\ b = a).
Proof. intros f l W. cbn. split; [exact W|]. exists []. auto. Qed.
Lemma pret_complete {A} (a : A) st : p_complete (pret a) st (fun t b => t = [] /\ b = a).
Proof. intros f l t b r W E [-> ->] _. exists l. split; [reflexivity|]. split; [exact E|exact W]. Qed.

Lemma spaces_stop w s : spaces w -> stop s -> stop (w ++ s).
Proof.
  destruct w as [|c w]; [auto|]. unfold spaces. cbn. intros H _. apply andb_true_iff in H as [H _]. unfold stop_char. rewrite H. reflexivity.
Qed.
Lemma gap_stop w s : gap true w -> stop (w ++ s).
Proof.
  intros [Hw Hn]. specialize (Hn eq_refl). destruct w as [|c w]; [congruence|]. unfold spaces in Hw. cbn in *.
  apply andb_true_iff in Hw as [Hw _]. unfold stop_char. rewrite Hw. reflexivity.
Qed.
Lemma one_in_parens_sound {A} tk (conv : field -> ctoken -> outcome cell_error A) R :
  tok_sound tk conv R -> p_sound (one_in_parens tk conv) (parens1 R).
Proof.
  intros HT f l H. unfold one_in_parens.
  pose proof (take_ok f l (lit "(") H ltac:(discriminate)) as T1. destruct (take f l (lit "(")) as [l1| | |]; auto. cbn [bind].
  destruct T1 as [W1 [w0 [Hw0 E0]]]. pose proof (HT f l1 W1) as T2. destruct (tk f l1) as [[t l2]| | |]; auto. cbn [bind].
  destruct T2 as [W2 T2].
  assert (K : forall r, match r with Ok a => exists w x, spaces w /\ cl_input l1 = w ++ x ++ cl_input l2 /\ R x a | Err _ => True | Panic | NoFuel => False end ->
     match (do l <- take f l2 (lit ")"); do v <- r; Ok (v, l)) with
     | Ok (a, l') => wf f l' /\ exists t, cl_input l = t ++ cl_input l' /\ parens1 R t a
     | Err _ => True | Panic | NoFuel => False
     end).
  { intros r Hr. pose proof (take_ok f l2 (lit ")") W2 ltac:(discriminate)) as T3. destruct (take f l2 (lit ")")) as [l3| | |]; auto. cbn [bind].
    destruct T3 as [W3 [w2 [Hw2 E2]]]. destruct r as [a| | |]; auto. cbn [bind]. destruct Hr as [w1 [x [Hw1 [E1 Hx]]]].
    split; [exact W3|]. exists (w0 ++ lit "(" ++ w1 ++ x ++ w2 ++ lit ")"). split; [rewrite E0, E1, E2, <- !app_assoc; reflexivity|].
    exists w0, w1, x, w2. auto 10. }
  destruct (conv f t) as [a|e| |] eqn:C; try contradiction.
  - exact (K (Ok a) T2).
  - exact (K (Err e) I).
Qed.
Lemma one_in_parens_complete {A} tk (conv : field -> ctoken -> outcome cell_error A) st R :
  tok_complete tk conv st R -> (forall r, stop r -> st r) -> p_complete (one_in_parens tk conv) (fun _ => True) (parens1 R).
Proof.
  intros HT Hst f l t a r H E [w0 [w1 [x [w2 [-> [Hw0 [Hw1 [Hw2 Hx]]]]]]]] _. unfold one_in_parens.
  rewrite <- !app_assoc in E.
  destruct (take_complete f l w0 (lit "(") (w1 ++ x ++ w2 ++ lit ")" ++ r) H E Hw0 eq_refl ltac:(discriminate)) as [l1 [X1 [X2 X3]]].
  rewrite X1. cbn [bind].
  destruct (HT f l1 w1 x a (w2 ++ lit ")" ++ r) X3 X2 Hw1 Hx) as [tok [l2 [Y1 [Y2 [Y3 Y4]]]]].
  { apply Hst. apply spaces_stop; [exact Hw2|reflexivity]. }
  rewrite Y1. cbn [bind]. rewrite Y4.
  destruct (take_complete f l2 w2 (lit ")") r Y3 Y2 Hw2 eq_refl ltac:(discriminate)) as [l3 [Z1 [Z2 Z3]]].
  rewrite Z1. cbn [bind]. eauto.
Qed.
Lemma two_in_parens_sound {A} tk (conv : field -> ctoken -> outcome cell_error A) R :
  tok_sound tk conv R -> p_sound (two_in_parens tk conv) (fun t ab => parens2 false R t (fst ab) (snd ab)).
Proof.
  intros HT f l H. unfold two_in_parens.
  pose proof (take_ok f l (lit "(") H ltac:(discriminate)) as T1. destruct (take f l (lit "(")) as [l1| | |]; auto. cbn [bind].
  destruct T1 as [W1 [w0 [Hw0 E0]]]. pose proof (HT f l1 W1) as T2. destruct (tk f l1) as [[t l2]| | |]; auto. cbn [bind].
  destruct T2 as [W2 T2]. destruct (conv f t) as [a| | |]; auto. cbn [bind]. destruct T2 as [w1 [x [Hw1 [E1 Hx]]]].
  pose proof (HT f l2 W2) as T3. destruct (tk f l2) as [[t' l3]| | |]; auto. cbn [bind].
  destruct T3 as [W3 T3]. destruct (conv f t') as [b| | |]; auto. cbn [bind]. destruct T3 as [w2 [y [Hw2 [E2 Hy]]]].
  pose proof (take_ok f l3 (lit ")") W3 ltac:(discriminate)) as T4. destruct (take f l3 (lit ")")) as [l4| | |]; auto. cbn [bind].
  destruct T4 as [W4 [w3 [Hw3 E3]]]. split; [exact W4|].
  exists (w0 ++ lit "(" ++ w1 ++ x ++ w2 ++ y ++ w3 ++ lit ")"). split; [rewrite E0, E1, E2, E3, <- !app_assoc; reflexivity|].
  exists w0, w1, x, w2, y, w3. unfold gap. repeat (split; auto). discriminate.
Qed.
Lemma two_in_parens_complete {A} tk (conv : field -> ctoken -> outcome cell_error A) st R :
  tok_complete tk conv st R -> (forall r, stop r -> st r) ->
  p_complete (two_in_parens tk conv) (fun _ => True) (fun t ab => parens2 true R t (fst ab) (snd ab)).
Proof.
  intros HT Hst f l t [a b] r H E [w0 [w1 [x [w2 [y [w3 [-> [Hw0 [Hw1 [Hw2 [Hw3 [Hx Hy]]]]]]]]]]]] _. unfold two_in_parens. cbn [fst snd] in *.
  rewrite <- !app_assoc in E.
  destruct (take_complete f l w0 (lit "(") _ H E Hw0 eq_refl ltac:(discriminate)) as [l1 [X1 [X2 X3]]].
  rewrite X1. cbn [bind].
  destruct (HT f l1 w1 x a _ X3 X2 Hw1 Hx) as [tok [l2 [Y1 [Y2 [Y3 Y4]]]]].
  { apply Hst. apply gap_stop. exact Hw2. }
  rewrite Y1. cbn [bind]. rewrite Y4. cbn [bind].
  destruct (HT f l2 w2 y b _ Y3 Y2 (proj1 Hw2) Hy) as [tok' [l3 [V1 [V2 [V3 V4]]]]].
  { apply Hst. apply spaces_stop; [exact Hw3|reflexivity]. }
  rewrite V1. cbn [bind]. rewrite V4. cbn [bind].
  destruct (take_complete f l3 w3 (lit ")") r V3 V2 Hw3 eq_refl ltac:(discriminate)) as [l4 [Z1 [Z2 Z3]]].
  rewrite Z1. cbn [bind]. eauto.
Qed.
Lemma in_range_sound co : p_sound (in_range co) (parens1 (a1_text co)).
Proof.
  intros f l H. unfold in_range.
  pose proof (take_ok f l (lit "(") H ltac:(discriminate)) as T1. destruct (take f l (lit "(")) as [l1| | |]; auto. cbn [bind].
  destruct T1 as [W1 [w0 [Hw0 E0]]]. pose proof (a1_sound co f l1 W1) as T2. destruct (take_a1 co f l1) as [[t l2]| | |]; auto. cbn [bind].
  destruct T2 as [W2 T2]. unfold a1_conv in T2. destruct (or_error f t MRange (a1_canon co (ct_text t))) as [a| | |]; auto. cbn [bind].
  destruct T2 as [w1 [x [Hw1 [E1 Hx]]]].
  pose proof (take_ok f l2 (lit ")") W2 ltac:(discriminate)) as T3. destruct (take f l2 (lit ")")) as [l3| | |]; auto. cbn [bind].
  destruct T3 as [W3 [w2 [Hw2 E2]]]. split; [exact W3|]. exists (w0 ++ lit "(" ++ w1 ++ x ++ w2 ++ lit ")").
  split; [rewrite E0, E1, E2, <- !app_assoc; reflexivity|]. exists w0, w1, x, w2. auto 10.
Qed.
Lemma in_range_complete co : p_complete (in_range co) (fun _ => True) (parens1 (a1_text co)).
Proof.
  intros f l t a r H E [w0 [w1 [x [w2 [-> [Hw0 [Hw1 [Hw2 Hx]]]]]]]] _. unfold in_range. rewrite <- !app_assoc in E.
  destruct (take_complete f l w0 (lit "(") _ H E Hw0 eq_refl ltac:(discriminate)) as [l1 [X1 [X2 X3]]].
  rewrite X1. cbn [bind].
  destruct (a1_complete co f l1 w1 x a _ X3 X2 Hw1 Hx) as [tok [l2 [Y1 [Y2 [Y3 Y4]]]]].
  { apply spaces_stop; [exact Hw2|reflexivity]. }
  rewrite Y1. cbn [bind]. unfold a1_conv in Y4. rewrite Y4. cbn [bind].
  destruct (take_complete f l2 w2 (lit ")") r Y3 Y2 Hw2 eq_refl ltac:(discriminate)) as [l3 [Z1 [Z2 Z3]]].
  rewrite Z1. cbn [bind]. eauto.
Qed.
Lemma in_list_sound co : p_sound (in_list co) (list_args co false).
Proof.
  intros f l H. unfold in_list.
  pose proof (take_ok f l (lit "(") H ltac:(discriminate)) as T1. destruct (take f l (lit "(")) as [l1| | |]; auto. cbn [bind].
  destruct T1 as [W1 [w0 [Hw0 E0]]].
  pose proof (in_list_loop_ok co f (S (length (cl_input l1))) l1 [] W1 ltac:(lia)) as T2.
  destruct (in_list_loop (S (length (cl_input l1))) co f l1 []) as [[vs l2]| | |]; auto. cbn [bind].
  destruct T2 as [W2 [x [ns [-> [E1 [Hx P]]]]]]. apply peek_close_spec in P as [w2 [r [Hw2 E2]]].
  destruct (take_complete f l2 w2 (lit ")") r W2 E2 (in_line_spaces _ Hw2) eq_refl ltac:(discriminate)) as [l3 [Z1 [Z2 Z3]]].
  rewrite Z1. cbn [bind]. split; [exact Z3|]. exists (w0 ++ lit "(" ++ x ++ w2 ++ lit ")").
  split; [rewrite E0, E1, E2, Z2, <- !app_assoc; reflexivity|]. exists w0, x, w2. auto.
Qed.
Lemma in_list_complete co : p_complete (in_list co) (fun _ => True) (list_args co true).
Proof.
  intros f l t ns r H E [w0 [x [w2 [-> [Hw0 [Hw2 Hx]]]]]] _. unfold in_list. rewrite <- !app_assoc in E.
  destruct (take_complete f l w0 (lit "(") _ H E Hw0 eq_refl ltac:(discriminate)) as [l1 [X1 [X2 X3]]].
  rewrite X1. cbn [bind].
  destruct (in_list_loop_done co f x ns Hx (S (length (cl_input l1))) l1 [] w2 r X3 X2 Hw2 ltac:(lia)) as [l2 [Y1 [Y2 Y3]]].
  rewrite Y1. cbn [bind app].
  destruct (take_complete f l2 w2 (lit ")") r Y3 Y2 (in_line_spaces _ Hw2) eq_refl ltac:(discriminate)) as [l3 [Z1 [Z2 Z3]]].
  rewrite Z1. cbn [bind]. eauto.
Qed.

(** ** Validations *)
(** the arguments of the validation called [n], together with the name *)
Definition args_text (co : cell_oracle) (strict : bool) (n : str) (t : str) (v : data_validation) : Prop :=
  word n -> validation_text co strict (n ++ t) v.
Lemma p_weaken {A} (p : parser A) (R R' : str -> A -> Prop) : p_sound p R -> (forall t a, R t a -> R' t a) -> p_sound p R'.
Proof.
  intros H K f l W. specialize (H f l W). destruct (p f l) as [[a l']| | |]; auto. destruct H as [W' [t [E Ht]]]. eauto 8.
Qed.
Lemma one_date_sound co : p_sound (one_date co) (parens1 (date_text co)).
Proof. apply one_in_parens_sound, date_sound. Qed.
Lemma two_dates_sound co : p_sound (two_dates co) (fun t ab => parens2 false (date_text co) t (fst ab) (snd ab)).
Proof. apply two_in_parens_sound, date_sound. Qed.
Lemma one_number_sound : p_sound one_number (parens1 integer_text).
Proof. apply one_in_parens_sound, number_sound. Qed.
Lemma two_numbers_sound : p_sound two_numbers (fun t ab => parens2 false integer_text t (fst ab) (snd ab)).
Proof. apply two_in_parens_sound, number_sound. Qed.
Lemma one_string_sound co : p_sound (one_string co) (parens1 string_text).
Proof. apply one_in_parens_sound, string_sound. Qed.
Ltac vk_names H :=
  apply match_str_In in H;
  let ps := fresh "ps" in let H1 := fresh "H1" in let H2 := fresh "H2" in
  destruct H as [ps [H1 H2]]; cbn [In] in H1;
  repeat (destruct H1 as [H1|H1]; [first [discriminate H1 | inversion H1; subst ps; clear H1; cbn [In] in H2;
    repeat (destruct H2 as [H2|H2]; [rewrite <- H2; in_table|]); contradiction]|]);
  contradiction.
Lemma validation_args_sound co k n : vkind_of (to_lowercase co n) = Some k ->
  p_sound (validation_args co k) (args_text co false n).
Proof.
  intro H. destruct k; cbn [validation_args].
  all: try (eapply p_weaken; [apply pmap_sound; apply one_string_sound|]; intros t v [a [-> Ha]] Hn;
            eapply vt_text; [exact Hn| |exact Ha]; vk_names H).
  all: try (eapply p_weaken; [apply pmap_sound; apply one_date_sound|]; intros t v [a [-> Ha]] Hn;
            eapply vt_date; [exact Hn| |exact Ha]; vk_names H).
  all: try (eapply p_weaken; [apply pmap_sound; apply one_number_sound|]; intros t v [a [-> Ha]] Hn;
            eapply vt_number; [exact Hn| |exact Ha]; vk_names H).
  all: try (eapply p_weaken; [apply pmap_sound; apply two_dates_sound|]; intros t v [[a b] [-> Ha]] Hn;
            eapply vt_dates; [exact Hn| |exact Ha]; vk_names H).
  all: try (eapply p_weaken; [apply pmap_sound; apply two_numbers_sound|]; intros t v [[a b] [-> Ha]] Hn;
            eapply vt_numbers; [exact Hn| |exact Ha]; vk_names H).
  all: try (eapply p_weaken; [apply pret_sound|]; intros t v [-> ->] Hn; rewrite app_nil_r;
            apply vt_plain; [exact Hn|]; vk_names H).
  - eapply p_weaken; [apply pmap_sound; apply in_list_sound|]. intros t v [a [-> Ha]] Hn.
    apply vt_list; [exact Hn| |exact Ha].
    apply match_str_In in H as [ps [H1 H2]]. cbn [In] in H1.
    repeat (destruct H1 as [H1|H1]; [first [discriminate H1 | inversion H1; subst ps; destruct H2 as [H2|[]]; symmetry; exact H2]|]). contradiction.
  - eapply p_weaken; [apply pmap_sound; apply in_range_sound|]. intros t v [a [-> Ha]] Hn.
    apply vt_range; [exact Hn| |exact Ha].
    apply match_str_In in H as [ps [H1 H2]]. cbn [In] in H1.
    repeat (destruct H1 as [H1|H1]; [first [discriminate H1 | inversion H1; subst ps; destruct H2 as [H2|[]]; symmetry; exact H2]|]). contradiction.
Qed.
