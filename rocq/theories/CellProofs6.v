(** * CellProofs6: completeness of validations; single options. *)
From Verif Require Import Base BaseProofs Csvp Ast AstLexer AstParser AstLexerProofs Options CellLexer CellParser CellSpec CellProofs CellProofs2 CellProofs3 CellProofs4 CellProofs5.
From Coq Require Import ZifyBool ZifyN.

Lemma one_date_complete co : p_complete (one_date co) (fun _ => True) (parens1 (date_text co)).
Proof. eapply one_in_parens_complete; [apply date_complete|apply stop_not_digit]. Qed.
Lemma two_dates_complete co : p_complete (two_dates co) (fun _ => True) (fun t ab => parens2 true (date_text co) t (fst ab) (snd ab)).
Proof. eapply two_in_parens_complete; [apply date_complete|apply stop_not_digit]. Qed.
Lemma one_number_complete : p_complete one_number (fun _ => True) (parens1 integer_text).
Proof. eapply one_in_parens_complete; [apply number_complete|auto]. Qed.
Lemma two_numbers_complete : p_complete two_numbers (fun _ => True) (fun t ab => parens2 true integer_text t (fst ab) (snd ab)).
Proof. eapply two_in_parens_complete; [apply number_complete|auto]. Qed.
Lemma one_string_complete co : p_complete (one_string co) (fun _ => True) (parens1 string_text).
Proof. eapply one_in_parens_complete; [apply string_complete|auto]. Qed.

Ltac pick H := unfold spelled in H; cbn [map In] in H;
  repeat (destruct H as [H|H]; [inversion H; subst; eexists; split; reflexivity|]); contradiction.
Lemma plain_kind co s v : spelled plain_validations s v -> exists k, vkind_of s = Some k /\ validation_args co k = pret v.
Proof. intro H. pick H. Qed.
Lemma text_kind co s mk : spelled text_validations s mk -> exists k, vkind_of s = Some k /\ validation_args co k = pmap mk (one_string co).
Proof. intro H. pick H. Qed.
Lemma date_kind co s mk : spelled date_validations s mk -> exists k, vkind_of s = Some k /\ validation_args co k = pmap mk (one_date co).
Proof. intro H. pick H. Qed.
Lemma dates_kind co s mk : spelled date_pair_validations s mk -> exists k, vkind_of s = Some k /\ validation_args co k = pmap (fun '(a, b) => mk a b) (two_dates co).
Proof. intro H. pick H. Qed.
Lemma number_kind co s mk : spelled number_validations s mk -> exists k, vkind_of s = Some k /\ validation_args co k = pmap mk one_number.
Proof. intro H. pick H. Qed.
Lemma numbers_kind co s mk : spelled number_pair_validations s mk -> exists k, vkind_of s = Some k /\ validation_args co k = pmap (fun '(a, b) => mk a b) two_numbers.
Proof. intro H. pick H. Qed.

Lemma spaces_paren_stop w r : spaces w -> stop_word (w ++ lit "(" ++ r).
Proof.
  destruct w as [|c w]; [reflexivity|]. unfold spaces. cbn. intro H. apply andb_true_iff in H as [H _].
  destruct (word_char c) eqn:E; [|reflexivity]. apply word_char_not_ws in E. congruence.
Qed.

(** [validation_text] split into the name and the arguments *)
Lemma validation_split co t v : validation_text co true t v ->
  exists n a k (R : str -> data_validation -> Prop), t = n ++ a /\ word n /\ vkind_of (to_lowercase co n) = Some k
    /\ p_complete (validation_args co k) (fun _ => True) R /\ R a v /\ (a = [] \/ exists w b, spaces w /\ a = w ++ lit "(" ++ b).
Proof.
  intro H. destruct H as [n v Hn Hs|n t mk s Hn Hs Ha|n t mk d Hn Hs Ha|n t mk a b Hn Hs Ha|n t mk z Hn Hs Ha|n t mk a b Hn Hs Ha|n t ns Hn Hs Ha|n t a Hn Hs Ha].
  - destruct (plain_kind co _ _ Hs) as [k [Hk E]]. exists n, [], k. eexists. split; [rewrite app_nil_r; reflexivity|].
    split; [exact Hn|]. split; [exact Hk|]. rewrite E. split; [apply pret_complete|]. auto.
  - destruct (text_kind co _ _ Hs) as [k [Hk E]]. exists n, t, k. eexists. split; [reflexivity|].
    split; [exact Hn|]. split; [exact Hk|]. rewrite E. split; [apply pmap_complete, one_string_complete|].
    split; [eauto|]. right. destruct Ha as [w0 [w1 [x [w2 [-> [Hw _]]]]]]. eauto.
  - destruct (date_kind co _ _ Hs) as [k [Hk E]]. exists n, t, k. eexists. split; [reflexivity|].
    split; [exact Hn|]. split; [exact Hk|]. rewrite E. split; [apply pmap_complete, one_date_complete|].
    split; [eauto|]. right. destruct Ha as [w0 [w1 [x [w2 [-> [Hw _]]]]]]. eauto.
  - destruct (dates_kind co _ _ Hs) as [k [Hk E]]. exists n, t, k. eexists. split; [reflexivity|].
    split; [exact Hn|]. split; [exact Hk|]. rewrite E. split; [apply pmap_complete, two_dates_complete|].
    split; [exists (a, b); auto|]. right. destruct Ha as [w0 [w1 [x [w2 [y [w3 [-> [Hw _]]]]]]]]. eauto.
  - destruct (number_kind co _ _ Hs) as [k [Hk E]]. exists n, t, k. eexists. split; [reflexivity|].
    split; [exact Hn|]. split; [exact Hk|]. rewrite E. split; [apply pmap_complete, one_number_complete|].
    split; [eauto|]. right. destruct Ha as [w0 [w1 [x [w2 [-> [Hw _]]]]]]. eauto.
  - destruct (numbers_kind co _ _ Hs) as [k [Hk E]]. exists n, t, k. eexists. split; [reflexivity|].
    split; [exact Hn|]. split; [exact Hk|]. rewrite E. split; [apply pmap_complete, two_numbers_complete|].
    split; [exists (a, b); auto|]. right. destruct Ha as [w0 [w1 [x [w2 [y [w3 [-> [Hw _]]]]]]]]. eauto.
  - exists n, t, VKInList. eexists. split; [reflexivity|]. split; [exact Hn|]. split; [rewrite Hs; reflexivity|].
    split; [apply pmap_complete, in_list_complete|]. split; [eauto|]. right. destruct Ha as [w0 [x [w2 [-> [Hw _]]]]]. eauto.
  - exists n, t, VKInRange. eexists. split; [reflexivity|]. split; [exact Hn|]. split; [rewrite Hs; reflexivity|].
    split; [apply pmap_complete, in_range_complete|]. split; [eauto|]. right. destruct Ha as [w0 [w1 [x [w2 [-> [Hw _]]]]]]. eauto.
Qed.

(** ** Name = word *)
Lemma right_side_ok co f l : wf f l ->
  match take_option_right_side co f l with
  | Ok (t, l') => wf f l' /\ tok_at f t /\ word (ct_text t) /\ exists w1 w2, spaces w1 /\ spaces w2
      /\ cl_input l = w1 ++ [c_eq] ++ w2 ++ ct_text t ++ cl_input l'
  | Err _ => True | Panic | NoFuel => False
  end.
Proof.
  intro H. unfold take_option_right_side.
  pose proof (take_ok f l [c_eq] H ltac:(discriminate)) as T1. destruct (take f l [c_eq]) as [l1| | |]; cbn [bind]; auto.
  destruct T1 as [W1 [w1 [Hw1 E1]]]. pose proof (word_sound co f l1 W1) as T2. pose proof (identifier_tok co f l1 W1) as T3.
  destruct (take_identifier co f l1) as [[t l2]| | |]; auto. destruct T2 as [W2 [w2 [x [Hw2 [E2 [Ex Hx]]]]]].
  split; [exact W2|]. split; [exact T3|]. subst x. split; [exact Hx|]. exists w1, w2. split; [exact Hw1|]. split; [exact Hw2|].
  rewrite E1, E2. reflexivity.
Qed.
Lemma right_side_done co f l w1 w2 n r : wf f l -> cl_input l = w1 ++ [c_eq] ++ w2 ++ n ++ r -> spaces w1 -> spaces w2 -> word n ->
  stop_word r -> exists t l', take_option_right_side co f l = Ok (t, l') /\ ct_text t = n /\ cl_input l' = r /\ wf f l'.
Proof.
  intros H E Hw1 Hw2 Hn Hr. unfold take_option_right_side.
  destruct (take_complete f l w1 [c_eq] _ H E Hw1 eq_refl ltac:(discriminate)) as [l1 [X1 [X2 X3]]]. rewrite X1. cbn [bind].
  destruct (word_complete co f l1 w2 n n r X3 X2 Hw2 (conj eq_refl Hn) Hr) as [t [l' [Y1 [Y2 [Y3 Y4]]]]].
  exists t, l'. inversion Y4. auto.
Qed.

Lemma validate_sound co : p_sound (validate_option co) (fun t o => exists w v, o = OValidate v /\ assigns t w /\ validation_text co false w v).
Proof.
  intros f l H. unfold validate_option. pose proof (right_side_ok co f l H) as T.
  destruct (take_option_right_side co f l) as [[t l1]| | |]; cbn [bind]; auto.
  destruct T as [W1 [Ht [Hn [w1 [w2 [Hw1 [Hw2 E1]]]]]]].
  pose proof (or_error_spec f t (MInvalidValue (lit "validate") possible_validations) (vkind_of (to_lowercase co (ct_text t))) Ht) as O.
  destruct (or_error f t (MInvalidValue (lit "validate") possible_validations) (vkind_of (to_lowercase co (ct_text t)))) as [k| | |]; cbn [bind]; auto.
  pose proof (pmap_sound OValidate _ _ (validation_args_sound co k (ct_text t) O) f l1 W1) as S.
  destruct (pmap OValidate (validation_args co k) f l1) as [[o l2]| | |]; auto.
  destruct S as [W2 [x [E2 [v [-> Hv]]]]]. split; [exact W2|]. exists (w1 ++ [c_eq] ++ w2 ++ ct_text t ++ x).
  split; [rewrite E1, E2, <- !app_assoc; reflexivity|]. exists (ct_text t ++ x), v. split; [reflexivity|].
  split; [exists w1, w2; auto|]. apply Hv. exact Hn.
Qed.
Lemma validate_complete co : p_complete (validate_option co) stop (fun t o => exists w v, o = OValidate v /\ assigns t w /\ validation_text co true w v).
Proof.
  intros f l t o r H E [w [v [-> [[w1 [w2 [-> [Hw1 Hw2]]]] Hv]]]] Hr.
  destruct (validation_split co w v Hv) as [n [a [k [R [-> [Hn [Hk [HC [Ra Ha]]]]]]]]].
  rewrite <- !app_assoc in E.
  destruct (right_side_done co f l w1 w2 n (a ++ r) H E Hw1 Hw2 Hn) as [tok [l1 [X1 [X2 [X3 X4]]]]].
  { destruct Ha as [->|[w [b [Hw ->]]]]; [apply stop_is_stop_word; exact Hr|]. rewrite <- !app_assoc. apply spaces_paren_stop. exact Hw. }
  unfold validate_option. rewrite X1. cbn [bind]. rewrite X2, Hk. cbn [or_error bind].
  destruct (HC f l1 a v r X4 X3 Ra I) as [l2 [Y1 [Y2 Y3]]]. unfold pmap. rewrite Y1. cbn [bind]. eauto.
Qed.

(** an option that takes one value after the equals sign *)
Definition value_option {A} (tk : field -> clexer -> outcome cell_error (ctoken * clexer))
  (conv : field -> ctoken -> outcome cell_error A) (mk : A -> opt) : parser opt := fun f l =>
  do l <- take f l [c_eq]; do (t, l) <- tk f l; do a <- conv f t; Ok (mk a, l).
Lemma value_sound {A} tk conv (mk : A -> opt) R : tok_sound tk conv R ->
  p_sound (value_option tk conv mk) (fun t o => exists w a, o = mk a /\ assigns t w /\ R w a).
Proof.
  intros HT f l H. unfold value_option.
  pose proof (take_ok f l [c_eq] H ltac:(discriminate)) as T1. destruct (take f l [c_eq]) as [l1| | |]; cbn [bind]; auto.
  destruct T1 as [W1 [w1 [Hw1 E1]]]. pose proof (HT f l1 W1) as T2. destruct (tk f l1) as [[t l2]| | |]; cbn [bind]; auto.
  destruct T2 as [W2 T2]. destruct (conv f t) as [a| | |]; cbn [bind]; auto. destruct T2 as [w2 [x [Hw2 [E2 Hx]]]].
  split; [exact W2|]. exists (w1 ++ [c_eq] ++ w2 ++ x). split; [rewrite E1, E2, <- !app_assoc; reflexivity|].
  exists x, a. split; [reflexivity|]. split; [exists w1, w2; auto|exact Hx].
Qed.
Lemma value_complete {A} tk conv (mk : A -> opt) st R : tok_complete tk conv st R ->
  p_complete (value_option tk conv mk) st (fun t o => exists w a, o = mk a /\ assigns t w /\ R w a).
Proof.
  intros HT f l t o r H E [w [a [-> [[w1 [w2 [-> [Hw1 Hw2]]]] Hv]]]] Hr. unfold value_option. rewrite <- !app_assoc in E.
  destruct (take_complete f l w1 [c_eq] _ H E Hw1 eq_refl ltac:(discriminate)) as [l1 [X1 [X2 X3]]]. rewrite X1. cbn [bind].
  destruct (HT f l1 w2 w a r X3 X2 Hw2 Hv Hr) as [tk' [l2 [Y1 [Y2 [Y3 Y4]]]]]. rewrite Y1. cbn [bind]. rewrite Y4. cbn [bind]. eauto.
Qed.
(** words looked up in a table *)
Definition lookup_conv {A} co (m : cell_message) (of : str -> option A) (f : field) (t : ctoken) := or_error f t m (of (to_lowercase co (ct_text t))).
Definition lookup_text {A} co (of : str -> option A) (w : str) (v : A) : Prop := word w /\ of (to_lowercase co w) = Some v.
Lemma lookup_sound {A} co m (of : str -> option A) : tok_sound (take_identifier co) (lookup_conv co m of) (lookup_text co of).
Proof.
  intros f l H. pose proof (word_sound co f l H) as T. pose proof (identifier_tok co f l H) as T3.
  destruct (take_identifier co f l) as [[t l2]| | |]; auto. destruct T as [W2 [w2 [x [Hw2 [E2 [Ex Hx]]]]]].
  split; [exact W2|]. unfold lookup_conv. pose proof (or_error_spec f t m (of (to_lowercase co (ct_text t))) T3) as O.
  destruct (or_error f t m (of (to_lowercase co (ct_text t)))) as [v| | |]; auto. exists w2, x. split; [exact Hw2|]. split; [exact E2|].
  subst x. split; assumption.
Qed.
Lemma lookup_complete {A} co m (of : str -> option A) : tok_complete (take_identifier co) (lookup_conv co m of) stop (lookup_text co of).
Proof.
  intros f l w x v r H E Hw [Hx Hv] Hr.
  destruct (word_complete co f l w x x r H E Hw (conj eq_refl Hx) (stop_is_stop_word r Hr)) as [t [l' [Y1 [Y2 [Y3 Y4]]]]].
  exists t, l'. split; [exact Y1|]. split; [exact Y2|]. split; [exact Y3|]. inversion Y4 as [Et]. unfold lookup_conv. rewrite Et, Hv. reflexivity.
Qed.
Lemma word_option_eq {A} co (of : str -> option A) m mk f l :
  word_option co of m mk f l = value_option (take_identifier co) (lookup_conv co m of) mk f l.
Proof. unfold word_option, value_option, take_option_right_side. destruct (take f l [c_eq]) as [l1| | |]; reflexivity. Qed.
Lemma color_option_eq co mk f l : color_option co mk f l = value_option (take_color co) rgb_of_token mk f l.
Proof. reflexivity. Qed.
Lemma string_option_eq co mk f l : string_option co mk f l = value_option (take_string co) (fun _ t => Ok (ct_text t)) mk f l.
Proof. reflexivity. Qed.
Lemma font_size_eq f l : font_size_option f l = value_option take_positive_number (unsigned_conv MFontSize 255) OFontSize f l.
Proof. reflexivity. Qed.
Lemma var_option_eq co f l : var_option co f l = value_option (take_identifier co) (fun _ t => Ok (ct_text t)) OVar f l.
Proof. unfold var_option, value_option, take_option_right_side. destruct (take f l [c_eq]) as [l1| | |]; reflexivity. Qed.

(** ** One option *)
(** what follows an option: a value's end, and no equals sign *)
Definition stop_opt (r : str) : Prop := stop r /\ strip_prefix [c_eq] (trim_start r) = None.
Definition rest_of (l : clexer) (r : str) : Prop := exists w, spaces w /\ r = w ++ cl_input l.

Lemma p_sound_ext {A} (p q : parser A) R : (forall f l, p f l = q f l) -> p_sound q R -> p_sound p R.
Proof. intros E H f l W. rewrite E. apply H. exact W. Qed.
Lemma p_complete_ext {A} (p q : parser A) st R : (forall f l, p f l = q f l) -> p_complete q st R -> p_complete p st R.
Proof. intros E H f l t a r. rewrite E. apply H. Qed.

(** what may stand after the name of an option of a kind *)
Definition kind_text (co : cell_oracle) (strict is_row : bool) (k : okind) (t : str) (o : opt) : Prop :=
  match k with
  | KBorder => exists w v, o = OBorder v /\ assigns t w /\ lookup_text co border_side_of w v
  | KBorderColor => exists w v, o = OBorderColor v /\ assigns t w /\ color_text w v
  | KBorderStyle => exists w v, o = OBorderStyle v /\ assigns t w /\ lookup_text co border_style_of w v
  | KCellColor => exists w v, o = OColor v /\ assigns t w /\ color_text w v
  | KValidate => exists w v, o = OValidate v /\ assigns t w /\ validation_text co strict w v
  | KFill => is_row = true /\ (o = OFill None /\ t = [] \/ exists w n, o = OFill (Some n) /\ assigns t w /\ unsigned_text USIZE_MAX w n)
  | KFontColor => exists w v, o = OFontColor v /\ assigns t w /\ color_text w v
  | KFontFamily => exists w v, o = OFontFamily v /\ assigns t w /\ string_text w v
  | KFontSize => exists w v, o = OFontSize v /\ assigns t w /\ unsigned_text 255 w v
  | KHalign => exists w v, o = OHalign v /\ assigns t w /\ lookup_text co horizontal_align_of w v
  | KLock => o = OLock /\ t = []
  | KNote => exists w v, o = ONote v /\ assigns t w /\ string_text w v
  | KNumberFormat => exists w v, o = ONumberFormat v /\ assigns t w /\ lookup_text co number_format_of w v
  | KText => exists w v, o = OText v /\ assigns t w /\ lookup_text co text_format_of w v
  | KVar => exists w v, o = OVar v /\ assigns t w /\ word_text w v
  | KValign => exists w v, o = OValign v /\ assigns t w /\ lookup_text co vertical_align_of w v
  | KWrap => exists w v, o = OWrap v /\ assigns t w /\ lookup_text co text_wrap_of w v
  end.
Definition trailing {A} (R : str -> A -> Prop) (t : str) (a : A) : Prop := exists x w, t = x ++ w /\ spaces w /\ R x a.
Lemma trailing_intro {A} (R : str -> A -> Prop) t a : R t a -> trailing R t a.
Proof. intro H. exists t, []. rewrite app_nil_r. split; [reflexivity|]. split; [reflexivity|exact H]. Qed.
Lemma fill_sound is_row name f l : wf f l -> tok_at f name ->
  match fill_option is_row name f l with
  | Ok (o, l') => wf f l' /\ exists t, cl_input l = t ++ cl_input l' /\
      trailing (fun t o => is_row = true /\ (o = OFill None /\ t = [] \/ exists w n, o = OFill (Some n) /\ assigns t w /\ unsigned_text USIZE_MAX w n)) t o
  | Err _ => True | Panic | NoFuel => False
  end.
Proof.
  intros H Hn. unfold fill_option. destruct is_row; cbn [negb]; [|destruct (Hn (opt * clexer)%type MFillPlace) as [e ->]; exact I].
  pose proof (maybe_take_ok f l [c_eq] H) as M. destruct (maybe_take l [c_eq]) as [[l1|] l0].
  - destruct M as [W1 [w1 [Hw1 E1]]]. pose proof (unsigned_sound MFillAmount USIZE_MAX f l1 W1) as T2.
    destruct (take_positive_number f l1) as [[t l2]| | |]; cbn [bind]; auto. destruct T2 as [W2 T2]. unfold unsigned_conv in T2.
    destruct (or_error f t MFillAmount (parse_unsigned USIZE_MAX (ct_text t))) as [n| | |]; cbn [bind]; auto. destruct T2 as [w2 [x [Hw2 [E2 Hx]]]].
    split; [exact W2|]. exists (w1 ++ [c_eq] ++ w2 ++ x). split; [rewrite E1, E2, <- !app_assoc; reflexivity|].
    apply trailing_intro. split; [reflexivity|]. right. exists x, n. split; [reflexivity|]. split; [exists w1, w2; auto|exact Hx].
  - destruct M as [W1 [_ [[w [Hw E]] _]]]. split; [exact W1|]. exists w. split; [exact E|]. exists [], w. auto 10.
Qed.
Lemma option_value_sound co is_row k name f l : wf f l -> tok_at f name ->
  match option_value co is_row k name f l with
  | Ok (o, l') => wf f l' /\ exists t, cl_input l = t ++ cl_input l' /\ trailing (kind_text co false is_row k) t o
  | Err _ => True | Panic | NoFuel => False
  end.
Proof.
  intros H Hn.
  assert (K : forall p, p_sound p (kind_text co false is_row k) ->
    match p f l with
    | Ok (o, l') => wf f l' /\ exists t, cl_input l = t ++ cl_input l' /\ trailing (kind_text co false is_row k) t o
    | Err _ => True | Panic | NoFuel => False
    end).
  { intros p S. specialize (S f l H). destruct (p f l) as [[o l']| | |]; auto. destruct S as [W [t [E Ht]]].
    split; [exact W|]. exists t. split; [exact E|]. apply trailing_intro. exact Ht. }
  destruct k; cbn [option_value].
  6: exact (fill_sound is_row name f l H Hn).
  all: apply K; unfold kind_text.
  1,3,9,12,13,15,16: eapply p_sound_ext; [apply word_option_eq|]; apply value_sound, lookup_sound.
  1,2,4: eapply p_sound_ext; [apply color_option_eq|]; apply value_sound, color_sound.
  - apply validate_sound.
  - eapply p_sound_ext; [apply string_option_eq|]; apply value_sound, string_sound.
  - eapply p_sound_ext; [apply font_size_eq|]; apply value_sound, unsigned_sound.
  - eapply p_weaken; [apply pret_sound|]. intros t a [-> ->]. auto.
  - eapply p_sound_ext; [apply string_option_eq|]; apply value_sound, string_sound.
  - eapply p_sound_ext; [apply var_option_eq|]; apply value_sound, word_sound.
Qed.
Lemma option_value_complete co is_row k name f l t o r : wf f l -> cl_input l = t ++ r -> kind_text co true is_row k t o -> stop_opt r ->
  exists l', option_value co is_row k name f l = Ok (o, l') /\ rest_of l' r /\ wf f l'.
Proof.
  intros H E Hk [Hr He].
  assert (K : forall p st, p_complete p st (kind_text co true is_row k) -> st r ->
    exists l', p f l = Ok (o, l') /\ rest_of l' r /\ wf f l').
  { intros p st S Hst. destruct (S f l t o r H E Hk Hst) as [l' [X1 [X2 X3]]]. exists l'. split; [exact X1|]. split; [|exact X3].
    exists []. rewrite X2. split; reflexivity. }
  destruct k; cbn [option_value]; unfold kind_text in *.
  1,3,10,13,14,16,17: eapply K; [eapply p_complete_ext; [apply word_option_eq|]; apply value_complete, lookup_complete|exact Hr].
  1,2,5: eapply K; [eapply p_complete_ext; [apply color_option_eq|]; apply value_complete, color_complete|exact Hr].
  - eapply K; [apply validate_complete|exact Hr].
  - destruct Hk as [-> [[-> ->]|[w [n [-> [[w1 [w2 [-> [Hw1 Hw2]]]] Hn]]]]]]; unfold fill_option; cbn [negb].
    + unfold maybe_take. destruct (wf_take_ws f l H) as [W [w [Hw [Ew _]]]]. cbn [app] in E.
      replace (cl_input (take_whitespace l)) with (trim_start r) by (cbn; rewrite E; reflexivity). rewrite He.
      exists (take_whitespace l). split; [reflexivity|]. split; [|exact W]. exists w. split; [exact Hw|]. rewrite <- E. exact Ew.
    + rewrite <- !app_assoc in E. unfold maybe_take. destruct (wf_take_ws f l H) as [W _].
      assert (Ei : cl_input (take_whitespace l) = [c_eq] ++ w2 ++ w ++ r) by (eapply take_ws_reads; eauto; reflexivity).
      rewrite Ei, strip_prefix_app. destruct (wf_step f _ _ _ W Ei) as [W1 _].
      match goal with |- context [take_positive_number f ?x] => set (l1 := x) in * end.
      destruct (unsigned_complete MFillAmount USIZE_MAX f l1 w2 w n r W1 eq_refl Hw2 Hn Hr) as [tk [l2 [Y1 [Y2 [Y3 Y4]]]]].
      rewrite Y1. cbn [bind]. unfold unsigned_conv in Y4. rewrite Y4. cbn [bind]. exists l2. split; [reflexivity|]. split; [|exact Y3].
      exists []. rewrite Y2. split; reflexivity.
  - eapply K; [eapply p_complete_ext; [apply string_option_eq|]; apply value_complete, string_complete|exact Hr].
  - eapply K; [eapply p_complete_ext; [apply font_size_eq|]; apply value_complete, unsigned_complete|exact Hr].
  - destruct Hk as [-> ->]. exists l. split; [reflexivity|]. split; [|exact H]. exists []. split; [reflexivity|]. rewrite E. reflexivity.
  - eapply K; [eapply p_complete_ext; [apply string_option_eq|]; apply value_complete, string_complete|exact Hr].
  - eapply K; [eapply p_complete_ext; [apply var_option_eq|]; apply value_complete, word_complete|apply stop_is_stop_word; exact Hr].
Qed.
