(** * Property C78: the values an error offers are accepted. *)
From Verif Require Import Base BaseProofs Csvp CsvpSpec Ast AstProofs AstLexer AstParser SourceCode SourceSpec Options CellLexer CellParser CellSpec CellProofs CellProofs3 CellProofs4 CellProofs5 CellProofs6 CellProofs7
  CellProofs8 CellProofs10 Eval Sheet Loader Report PropCell PropDisplay.

(** ** Specification *)
(** A line of possible values offers the word itself, or a long and a short spelling as in: top (t) *)
Definition offers (entry w : str) : Prop :=
  word w /\ (entry = w \/ exists x, word x /\ (entry = w ++ lit " (" ++ x ++ lit ")" \/ entry = x ++ lit " (" ++ w ++ lit ")")).
(** A line for a validation: a name, perhaps with the kinds of its arguments, and a text that follows it *)
Inductive fits (co : cell_oracle) : str -> str -> Prop :=
| fits_date t d : date_text co t d -> fits co (lit "DATE") t
| fits_number t z : integer_text t z -> fits co (lit "NUMBER") t
| fits_text t s : string_text t s -> fits co (lit "TEXT") t
| fits_formula t s : string_text t s -> fits co (lit "FORMULA") t.
Inductive follows (co : cell_oracle) : str -> str -> Prop :=
| follows_name w : word w -> follows co w w
| follows_one w k t : word w -> fits co k t -> follows co (w ++ lit "(" ++ k ++ lit ")") (w ++ lit "(" ++ t ++ lit ")")
| follows_two w k k' t t' : word w -> fits co k t -> fits co k' t' ->
    follows co (w ++ lit "(" ++ k ++ lit " " ++ k' ++ lit ")") (w ++ lit "(" ++ t ++ lit " " ++ t' ++ lit ")").
(** the name in such a line *)
Definition names_validation (entry w : str) : Prop := word w /\ (entry = w \/ exists a, entry = w ++ lit "(" ++ a).

(** ** Lemmas *)
Lemma span_word w c r : word w -> word_char c = false -> span word_char (w ++ c :: r) = (w, c :: r).
Proof.
  intros [_ H] Hc. induction w as [|d w IH]; cbn [app span forallb] in *.
  - rewrite Hc. reflexivity.
  - apply andb_prop in H as [Hd H]. rewrite Hd, (IH H). reflexivity.
Qed.
Lemma span_word_all w : word w -> span word_char w = (w, []).
Proof.
  intros [_ H]. induction w as [|d w IH]; cbn [span forallb] in *; [reflexivity|].
  apply andb_prop in H as [Hd H]. rewrite Hd, (IH H). reflexivity.
Qed.
Definition offered (e : str) : list str :=
  let (m, r) := span word_char e in m :: match r with _ :: _ :: r => [fst (span word_char r)] | _ => [] end.
Lemma offers_offered e w : offers e w -> In w (offered e).
Proof.
  intros [H [->|[x [Hx [->| ->]]]]]; unfold offered.
  - rewrite span_word_all by exact H. left. reflexivity.
  - change (lit " (" ++ x ++ lit ")") with (c_space :: lit "(" ++ x ++ lit ")"). rewrite span_word by (exact H || reflexivity). left. reflexivity.
  - change (lit " (" ++ w ++ lit ")") with (c_space :: lit "(" ++ w ++ lit ")"). rewrite span_word by (exact Hx || reflexivity).
    cbn [lit app]. change (String.list_ascii_of_string "(") with ["("%char]. right. left.
    change (40 :: w ++ [41])%N with (40%N :: (w ++ [41%N])). rewrite span_word by (exact H || reflexivity). reflexivity.
Qed.
Ltac is_word := split; [discriminate|reflexivity].
Lemma offers_long a b : word a -> word b -> offers (a ++ lit " (" ++ b ++ lit ")") a.
Proof. intros Ha Hb. split; [exact Ha|]. right. exists b. auto. Qed.
Lemma offers_short a b : word a -> word b -> offers (a ++ lit " (" ++ b ++ lit ")") b.
Proof. intros Ha Hb. split; [exact Hb|]. right. exists a. auto. Qed.
(** in a table, the spellings of a value are the words of some lines, and the other way round *)
Definition told {A} (t : table A) (ps : list str) : Prop :=
  forall s, (exists o, spelled t s o) <-> exists entry, In entry ps /\ offers entry s.
Definition told_check {A} (t : table A) (ps : list str) : bool :=
  forallb (fun '(k, _) => str_in (lit k) (flat_map offered ps)) t
  && forallb (fun e => forallb (fun w => str_in w (map (fun '(k, _) => lit k) t)) (offered e)
       && (match offered e with
           | [a] => str_eqb e a && forallb word_char a && negb (str_eqb a [])
           | [a; b] => str_eqb e (a ++ lit " (" ++ b ++ lit ")") && forallb word_char a && negb (str_eqb a []) && forallb word_char b && negb (str_eqb b [])
           | _ => false
           end)) ps.
Lemma word_check a : forallb word_char a = true -> negb (str_eqb a []) = true -> word a.
Proof. intros H1 H2. split; [|exact H1]. destruct (str_eqb_spec a []); [discriminate H2|assumption]. Qed.
Lemma told_checked {A} (t : table A) ps : told_check t ps = true -> told t ps.
Proof.
  unfold told_check. intro H. apply andb_prop in H as [H1 H2]. rewrite forallb_forall in H1, H2. intro s. split.
  - intros [o Ho]. unfold spelled in Ho. apply in_map_iff in Ho as [[k x] [E Hk]]. injection E as <- _.
    specialize (H1 _ Hk). cbn in H1. apply str_in_spec in H1.
    apply in_flat_map in H1 as [e [He Hw]]. exists e. split; [exact He|]. specialize (H2 _ He). apply andb_prop in H2 as [_ H2].
    destruct (offered e) as [|a [|b [|]]]; try discriminate H2.
    + apply andb_prop in H2 as [H2 Hne]. apply andb_prop in H2 as [Heq Ha]. destruct (str_eqb_spec e a) as [->|]; [|discriminate Heq].
      destruct Hw as [->|[]]. split; [apply word_check; assumption|left; reflexivity].
    + repeat (apply andb_prop in H2 as [H2 ?]). destruct (str_eqb_spec e (a ++ lit " (" ++ b ++ lit ")")) as [->|]; [|discriminate H2].
      destruct Hw as [->|[->|[]]]; [apply offers_long|apply offers_short]; apply word_check; assumption.
  - intros [e [He Ho]]. apply offers_offered in Ho. specialize (H2 _ He). apply andb_prop in H2 as [H2 _]. rewrite forallb_forall in H2.
    specialize (H2 _ Ho). apply str_in_spec in H2.
    apply in_map_iff in H2 as [[k x] [<- Hk]]. exists x. unfold spelled. apply in_map_iff. exists (k, x). auto.
Qed.
Lemma choices_told ns t n k : In (ns, t) choices -> one_of n ns -> okind_of n = Some k ->
  exists s o ps, ns = [s; o] /\ choice_error k = MInvalidValue (lit o) ps /\ told t ps.
Proof.
  intros H Hn Hk. unfold choices in H. cbn [In] in H. choose H;
    (match goal with |- exists s o ps, ?l = _ /\ _ => match l with [?a; ?b] => exists a, b end end);
    (assert (Hk' : choice_error k = choice_error k) by reflexivity);
    unfold one_of in Hn; cbn [map In] in Hn; destruct Hn as [Hn|[Hn|[]]]; rewrite <- Hn in Hk; vm_compute in Hk; injection Hk as <-;
    (eexists; split; [reflexivity|]; split; [reflexivity|]; apply told_checked; vm_compute; reflexivity).
Qed.

(** ** C78 *)
(** When the value of an option that takes one of a few words is not accepted, the error names the option and shows the word; and the
    words it offers are exactly those that are accepted in that place, in any mixture of cases. *)
Theorem C78_offered_words : forall co f r ns t n X v, located f ->
  In (ns, t) choices -> one_of n ns -> word X -> f_value f = lit "[[" ++ n ++ [c_eq] ++ X ++ lit "]]" ++ v ->
  (forall o, ~ spelled t (lower X) o) ->
  exists e short long ps, parse_cell co f r = Err e /\ ce_input e = lit "`" ++ X ++ lit "`"
    /\ ns = [short; long] /\ ce_message e = MInvalidValue (lit long) ps
    /\ forall f' r' w v', located f' -> no_list v' -> word w ->
         f_value f' = lit "[[" ++ n ++ [c_eq] ++ w ++ lit "]]" ++ v' ->
         ((exists c, parse_cell co f' r' = Ok (c, r')) <-> exists entry, In entry ps /\ offers entry (lower w)).
Proof.
  intros co f r ns t n X v L Hc Hn HX E Ho.
  destruct (choices_kind ns t n Hc Hn) as [k [g [Hk [Hno G]]]]. destruct (G co) as [Hg Hs].
  destruct (choices_told ns t n k Hc Hn Hk) as [s [o [ps [Es [Em T]]]]].
  destruct (choice_reject co n k g f r X v Hk Hg Hno HX) as [e [He [Hi Hm]]]; auto.
  { rewrite (to_lowercase_ascii co X (word_ascii X HX)). destruct (g (lower X)) as [o'|] eqn:Eg; [|reflexivity]. destruct (Ho o'). apply Hs. exact Eg. }
  exists e, s, o, ps. split; [exact He|]. split; [exact Hi|]. split; [exact Es|]. split; [congruence|].
  intros f' r' w v' L' N' Hw E'. destruct (C43_spellings co f' r' ns t n w v' L' N' Hc Hn Hw E') as [S1 S2].
  split.
  - intros [c Hp]. apply T. destruct (g (lower w)) as [o'|] eqn:Eg; [exists o'; apply Hs; exact Eg|exfalso].
    destruct S2 as [e' He']; [|congruence]. intros o' Ho'. apply Hs in Ho'. congruence.
  - intro X'. apply T in X' as [o' Ho']. destruct (S1 o' Ho') as [c [Hp _]]. eauto.
Qed.
Print Assumptions C78_offered_words.
Example C78_words_nonvacuous : exists e, parse_cell ex_co (ex_field 0 (lit "[[b=foo]]x")) default_row = Err e
  /\ (forall o, ~ spelled (map (fun '(k, v) => (k, OBorder v)) border_names) (lower (lit "foo")) o)
  /\ ce_message e = MInvalidValue (lit "border") [lit "all (a)"; lit "top (t)"; lit "bottom (b)"; lit "left (l)"; lit "right (r)"]
  /\ offers (lit "all (a)") (lit "all") /\ offers (lit "all (a)") (lit "a")
  /\ (exists c, parse_cell ex_co (ex_field 0 (lit "[[b=All]]x")) default_row = Ok (c, default_row)).
Proof.
  eexists. split; [vm_compute; reflexivity|]. split.
  { intros o H. unfold spelled in H. cbn [map In border_names] in H. repeat (destruct H as [H|H]; [discriminate H|]). contradiction. }
  split; [reflexivity|]. split; [apply (offers_long (lit "all") (lit "a")); is_word|]. split; [apply (offers_short (lit "all") (lit "a")); is_word|].
  eexists. vm_compute. reflexivity.
Qed.
(** Every error with such a list prints it, in the order it has, in a line of its own. *)
Theorem C78_printed : forall w f text a e o ps, ce_message e = MInvalidValue o ps -> exists report before after,
  show_load_error w f text (BadCell {| le_address := a; le_error := BadOptions e |}) = Ok report
  /\ report = before ++ lit "received invalid value when parsing `" ++ o ++ lit "` option but saw " ++ ce_input e ++ [c_nl]
              ++ lit "Possible values: " ++ join (lit " | ") ps ++ [c_nl] ++ after.
Proof.
  intros w f text a e o ps Hm. destruct (C73_report w f text (BadCell {| le_address := a; le_error := BadOptions e |})) as [report [part [R _]]].
  cbn [show_load_error le_error le_address] in R |- *. unfold shown_cell_error in *. rewrite Hm in *. cbn [cell_message_text] in *.
  destruct (highlight_line (source_code_new text) (ce_position e)) as [ls| | |]; try discriminate R. cbn [bind] in R |- *.
  unfold show_parse_error at 1. cbn [se_position se_message se_input se_possible se_lines].
  eexists. exists (line (lit "Syntax error in cell " ++ show_address a ++ lit " of " ++ wd_file w f)
    ++ lit "On line " ++ dec (N.of_nat (line_number (ce_position e) + 1)) ++ lit " "), ((match ls with [] => [] | _ => line [] end ++ concat (map line ls)) ++ [c_nl]).
  split; [reflexivity|]. unfold line. rewrite <- !app_assoc. reflexivity.
Qed.
Print Assumptions C78_printed.
(** What tests/error_messages.rs expects. *)
Example C78_border_report : ex_report (lit "
---
foo,bar,[[b=foo]],foo
") = Ok (lit "Syntax error in cell C1 of ""main.csvpp""
On line 3 received invalid value when parsing `border` option but saw `foo`
Possible values: all (a) | top (t) | bottom (b) | left (l) | right (r)

 1: 
 2: ---
 3: foo,bar,[[b=foo]],foo
  : --------------^

").
Proof. vm_compute. reflexivity. Qed.
Example C78_name_report : ex_report (lit "
---
foo,bar,[[text=bold ,foo
") = Ok (lit "Syntax error in cell C1 of ""main.csvpp""
On line 3 Expected a OptionName but saw unrecognized token ``

 1: 
 2: ---
 3: foo,bar,[[text=bold ,foo
  : ------------------^

").
Proof. vm_compute. reflexivity. Qed.

(** ** The same for validate *)
(** the names of validations that are accepted, in lower case *)
Definition names_in {A} (t : table A) : list string := map fst t.
Definition validation_names : list string :=
  names_in plain_validations ++ names_in text_validations ++ names_in date_validations ++ names_in date_pair_validations
  ++ names_in number_validations ++ names_in number_pair_validations ++ ["in_list"; "in_range"]%string.
(** a word ends here *)
Definition word_ends (r : str) : Prop := match r with [] => True | c :: _ => is_ascii c = true /\ word_char c = false end.
(** the lines that offer a name which is not accepted *)
Definition wrong_lines : list string := ["text_is_valid_email"; "text_is_valid_url"; "value_in_list(ANY ...)"; "value_in_range(A1)"]%string.

Lemma spelled_in {A} (t : table A) s : one_of s (names_in t) -> exists v, spelled t s v.
Proof.
  unfold one_of, names_in. intro H. rewrite in_map_iff in H. destruct H as [k [<- H]]. apply in_map_iff in H as [[k' v] [<- H]].
  exists v. unfold spelled. apply in_map_iff. exists (k', v). auto.
Qed.
Definition line_check (e : str) : bool :=
  let (w, r) := span word_char e in
  let is_in {A} (t : table A) := str_in (lower w) (map lit (names_in t)) in
  if str_in e (map lit wrong_lines) then true
  else if str_eqb r [] then is_in plain_validations
  else if str_eqb r (lit "(TEXT)") || str_eqb r (lit "(FORMULA)") then is_in text_validations
  else if str_eqb r (lit "(DATE)") then is_in date_validations
  else if str_eqb r (lit "(NUMBER)") then is_in number_validations
  else if str_eqb r (lit "(DATE DATE)") then is_in date_pair_validations
  else if str_eqb r (lit "(NUMBER NUMBER)") then is_in number_pair_validations
  else false.
Lemma lines_checked : forallb line_check possible_validations = true.
Proof. vm_compute. reflexivity. Qed.
Lemma in_names {A} co (t : table A) w : word w -> str_in (lower w) (map lit (names_in t)) = true -> exists v, spelled t (to_lowercase co w) v.
Proof. intros Hw H. rewrite (to_lowercase_ascii co w (word_ascii w Hw)). apply spelled_in. apply str_in_spec. exact H. Qed.
Lemma line_followed co e t : In e possible_validations -> ~ one_of e wrong_lines -> follows co e t -> exists d, validation_text co true t d.
Proof.
  intros He Hn Hf. pose proof lines_checked as C. rewrite forallb_forall in C. specialize (C _ He). unfold line_check in C. clear He.
  destruct (str_in e (map lit wrong_lines)) eqn:Ew; [destruct Hn; apply str_in_spec; exact Ew|]. clear Ew Hn.
  destruct Hf as [w Hw|w k t Hw Hk|w k k' t t' Hw Hk Hk'].
  - rewrite span_word_all in C by exact Hw. cbn [str_eqb] in C. apply (in_names co) in C as [v Hv]; [|exact Hw]. exists v. apply vt_plain; assumption.
  - change (lit "(" ++ k ++ lit ")") with (40%N :: k ++ lit ")") in C. rewrite span_word in C by (exact Hw || reflexivity).
    assert (P : forall A (val : str -> A -> Prop) a, val t a -> parens1 val (lit "(" ++ t ++ lit ")") a).
    { intros A val a Ha. exists [], [], t, []. repeat split. exact Ha. }
    destruct Hk as [t d Hd|t z Hd|t d Hd|t d Hd]; cbn -[str_in map names_in] in C; apply (in_names co) in C as [v Hv]; try exact Hw; exists (v d) + exists (v z).
    + eapply vt_date; eauto.
    + eapply vt_number; eauto.
    + eapply vt_text; eauto.
    + eapply vt_text; eauto.
  - change (lit "(" ++ k ++ lit " " ++ k' ++ lit ")") with (40%N :: k ++ lit " " ++ k' ++ lit ")") in C. rewrite span_word in C by (exact Hw || reflexivity).
    assert (P : forall A (val : str -> A -> Prop) a b, val t a -> val t' b -> parens2 true val (lit "(" ++ t ++ lit " " ++ t' ++ lit ")") a b).
    { intros A val a b Ha Hb. exists [], [], t, (lit " "), t', []. repeat split; try assumption. intros _ X. discriminate X. }
    destruct Hk as [t d Hd|t z Hd|t d Hd|t d Hd], Hk' as [t' d' Hd'|t' z' Hd'|t' d' Hd'|t' d' Hd']; cbn -[str_in map names_in] in C; try discriminate C;
      apply (in_names co) in C as [v Hv]; try exact Hw; eexists; [eapply vt_dates|eapply vt_numbers]; eauto.
Qed.
Lemma no_validation s : ~ one_of s validation_names -> vkind_of s = None.
Proof.
  intro H. destruct (vkind_of s) as [k|] eqn:E; [|reflexivity]. destruct H. unfold vkind_of in E. apply match_str_In in E as [ps [H1 H2]]. cbn [In] in H1.
  assert (G : forall l, forallb (fun n => str_in n (map lit validation_names)) l = true -> In s l -> one_of s validation_names).
  { intros l Hl Hs. rewrite forallb_forall in Hl. specialize (Hl _ Hs). apply str_in_spec in Hl. exact Hl. }
  repeat (destruct H1 as [H1|H1]; [apply (G ps); [injection H1 as <- _; vm_compute; reflexivity|exact H2]|]). contradiction.
Qed.
(** Whatever follows a name that is no validation's, the cell is rejected; the error names the option, shows the name and offers lines. Every line
    but four can be followed: replacing each kind of argument by such an argument gives a validation that is accepted. *)
Theorem C78_validations_partial : forall co f r n X v, located f ->
  one_of n ["dv"; "validate"]%string -> word X -> word_ends v -> f_value f = lit "[[" ++ n ++ [c_eq] ++ X ++ v ->
  ~ one_of (lower X) validation_names ->
  exists e ps, parse_cell co f r = Err e /\ ce_input e = lit "`" ++ X ++ lit "`" /\ ce_message e = MInvalidValue (lit "validate") ps /\ length ps = 24
    /\ forall entry t f' r' v', In entry ps -> ~ one_of entry wrong_lines -> follows co entry t ->
         located f' -> forallb is_ascii t = true -> no_list v' -> f_value f' = lit "[[" ++ n ++ [c_eq] ++ t ++ lit "]]" ++ v' ->
         exists c d, parse_cell co f' r' = Ok (c, r') /\ cell_options c = apply_opts [OValidate d] (row_options r').
Proof.
  intros co f r n X v L Hn HX Hv E Hno.
  destruct (validate_reject co n f r X v Hn HX) as [e [H1 [H2 H3]]]; auto.
  { rewrite (to_lowercase_ascii co X (word_ascii X HX)). apply no_validation. exact Hno. }
  exists e, possible_validations. repeat (split; [assumption || reflexivity|]).
  intros entry t f' r' v' He Hw Hf L' A' N' E'. destruct (line_followed co entry t He Hw Hf) as [d Hd].
  exists (cell_after f' [(false, [OValidate d])] v' r'), d. split.
  - apply (one_option co f' r' (n ++ [c_eq] ++ t) (OValidate d) v'); auto.
    + eapply ot_validate; [exact Hn| |exact Hd]. exists [], []. repeat split.
    + rewrite E', <- !app_assoc. reflexivity.
    + repeat (apply CellProofs.ascii_app; split); try reflexivity; [|exact A']. unfold one_of in Hn. cbn in Hn. destruct Hn as [<-|[<-|[]]]; reflexivity.
  - unfold cell_after, cell_opts, row_opts. cbn -[apply_opts]. rewrite apply_opts_nil. reflexivity.
Qed.
Print Assumptions C78_validations_partial.
Example C78_validations_nonvacuous : ~ one_of (lower (lit "Number")) validation_names
  /\ follows ex_co (lit "number_between(NUMBER NUMBER)") (lit "number_between(1 -20)")
  /\ (exists c, parse_cell ex_co (ex_field 0 (lit "[[validate=number_between(1 -20)]]x")) default_row = Ok (c, default_row)).
Proof.
  split; [|split].
  - intro H. apply str_in_spec in H. vm_compute in H. discriminate H.
  - apply (follows_two ex_co (lit "number_between") (lit "NUMBER") (lit "NUMBER") (lit "1") (lit "-20")); [is_word| |]; eapply fits_number;
      [left; repeat split; reflexivity|right; exists (lit "20"); repeat split; vm_compute; congruence].
  - eexists. vm_compute. reflexivity.
Qed.
(** The other four are themselves rejected, with the list that offers them. *)
Theorem C78_validations_refuted : forall co f r n entry X v, located f ->
  one_of n ["dv"; "validate"]%string -> one_of entry wrong_lines -> names_validation entry X -> word_ends v ->
  f_value f = lit "[[" ++ n ++ [c_eq] ++ X ++ v ->
  exists e ps, parse_cell co f r = Err e /\ ce_message e = MInvalidValue (lit "validate") ps /\ In entry ps.
Proof.
  intros co f r n entry X v L Hn He [HX Hnm] Hv E.
  assert (Hx : X = fst (span word_char entry)).
  { destruct Hnm as [->|[a ->]]; [rewrite span_word_all by exact HX; reflexivity|].
    change (lit "(" ++ a) with (40%N :: a). rewrite span_word by (exact HX || reflexivity). reflexivity. }
  assert (Hi : In entry possible_validations /\ ~ one_of (lower X) validation_names).
  { clear -He Hx. unfold one_of in He. cbn [map In wrong_lines] in He.
    repeat (destruct He as [He|He]; [rewrite <- He in *; split;
      [apply str_in_spec; vm_compute; reflexivity|rewrite Hx; intro H; apply str_in_spec in H; vm_compute in H; discriminate H]|]). contradiction. }
  destruct Hi as [Hi Ho]. destruct (C78_validations_partial co f r n X v L Hn HX Hv E Ho) as [e [ps [H1 [H2 [H3 [H4 _]]]]]].
  exists e, possible_validations. split; [exact H1|]. split; [|exact Hi].
  destruct (validate_reject co n f r X v Hn HX) as [e' [G1 [G2 G3]]]; auto.
  { rewrite (to_lowercase_ascii co X (word_ascii X HX)). apply no_validation. exact Ho. }
  rewrite G1 in H1. injection H1 as <-. exact G3.
Qed.
Print Assumptions C78_validations_refuted.
Example C78_validations_refuted_example : exists e ps, parse_cell ex_co (ex_field 0 (lit "[[validate=text_is_valid_email]]x")) default_row = Err e
  /\ ce_message e = MInvalidValue (lit "validate") ps /\ In (lit "text_is_valid_email") ps.
Proof. eexists. eexists. split; [vm_compute; reflexivity|]. split; [reflexivity|]. apply str_in_spec. vm_compute. reflexivity. Qed.
