(** * FormulaProofs: reading back printed formulas; precedence. *)
From Verif Require Import Base BaseProofs Csvp Ast AstProofs AstLexer AstParser FormulaSpec AstParserProofs.

(** ** Steps of the parser, without fuel *)
Section Steps.
Variable o : oracle.
Variable sg : bool.

Lemma st_operand m t s e rest r : is_operand t = true -> ast_try_from o (t, s) = inr e ->
  runs_loop o sg m e rest r -> runs_expr o sg m ((t, s) :: rest) r.
Proof.
  intros Ht He [n [H Hr]]. exists (S n). split; [|exact Hr].
  destruct t; try discriminate; cbn [expr_bp]; rewrite He; exact H.
Qed.

Lemma st_paren m a b ts e rest r :
  runs_expr o sg 0 ts (Ok (e, (TCloseParen, b) :: rest)) -> runs_loop o sg m e rest r ->
  runs_expr o sg m ((TOpenParen, a) :: ts) r.
Proof.
  intros [n1 [H1 _]] [n2 [H2 Hr]]. exists (S (Nat.max n1 n2)). split; [|exact Hr].
  simpl. rewrite (expr_mono o sg _ _ _ _ H1) by (discriminate || lia). simpl.
  apply (loop_mono o sg _ _ _ _ _ H2 Hr). lia.
Qed.

Lemma st_prefix m op ts e rest r s e' :
  (op = lit "+" /\ s = Positive \/ op = lit "-" /\ s = Negative) ->
  runs_expr o sg 170 ts (Ok (e, rest)) -> apply_sign s e = Some e' -> runs_loop o sg m e' rest r ->
  runs_expr o sg m ((TOperator, op) :: ts) r.
Proof.
  intros Hop [n1 [H1 _]] Hs [n2 [H2 Hr]]. exists (S (Nat.max n1 n2)). split; [|exact Hr].
  destruct Hop as [[-> ->] | [-> ->]]; simpl;
  rewrite (expr_mono o sg _ _ _ _ H1) by (discriminate || lia); cbn [bind]; rewrite Hs;
  apply (loop_mono o sg _ _ _ _ _ H2 Hr); lia.
Qed.

Lemma st_stop m l ts : stop_tok sg (fst (peek ts)) = true -> runs_loop o sg m l ts (Ok (l, ts)).
Proof.
  intro H. exists 1. split; [|discriminate]. simpl. destruct (peek ts) as [t op]. simpl in H.
  destruct t; try discriminate; try reflexivity; simpl in H; rewrite H; reflexivity.
Qed.

Lemma st_percent m l ts e r : m <= 160 -> apply_percent l = Some e ->
  runs_loop o sg m e ts r -> runs_loop o sg m l ((TOperator, lit "%") :: ts) r.
Proof.
  intros Hm Hp [n [H Hr]]. exists (S n). split; [|exact Hr]. simpl.
  replace (160 <? m) with false by (symmetry; apply Nat.ltb_ge; lia). rewrite Hp. exact H.
Qed.

Lemma st_percent_break m l ts : 160 < m ->
  runs_loop o sg m l ((TOperator, lit "%") :: ts) (Ok (l, (TOperator, lit "%") :: ts)).
Proof.
  intro Hm. exists 1. split; [|discriminate]. simpl.
  replace (160 <? m) with true by (symmetry; apply Nat.ltb_lt; lia). reflexivity.
Qed.

Lemma infix_not_postfix op p : infix_class op = Some p -> p <= 15 -> postfix_power op = None.
Proof.
  intro H. unfold postfix_power.
  destruct (str_eqb_spec op (lit "(")); [subst; discriminate|].
  destruct (str_eqb_spec op (lit "%")); [subst; discriminate|]. reflexivity.
Qed.

Lemma st_infix_break m l op p ts : infix_class op = Some p -> p <= 15 -> p * 10 + 1 < m ->
  runs_loop o sg m l ((TOperator, op) :: ts) (Ok (l, (TOperator, op) :: ts)).
Proof.
  intros Hc Hp Hm. exists 1. split; [|discriminate]. simpl.
  rewrite (infix_not_postfix op p Hc Hp). unfold infix_power. rewrite Hc.
  replace (p * 10 + 1 <? m) with true by (symmetry; apply Nat.ltb_lt; lia). reflexivity.
Qed.

Lemma st_infix m l op p ts e rest r : infix_class op = Some p -> p <= 15 -> m <= p * 10 + 1 ->
  runs_expr o sg (p * 10) ts (Ok (e, rest)) -> runs_loop o sg m (NInfix l op e) rest r ->
  runs_loop o sg m l ((TOperator, op) :: ts) r.
Proof.
  intros Hc Hp Hm [n1 [H1 _]] [n2 [H2 Hr]]. exists (S (Nat.max n1 n2)). split; [|exact Hr].
  simpl. rewrite (infix_not_postfix op p Hc Hp). unfold infix_power. rewrite Hc.
  replace (p * 10 + 1 <? m) with false by (symmetry; apply Nat.ltb_ge; lia).
  rewrite (expr_mono o sg _ _ _ _ H1) by (discriminate || lia). simpl.
  apply (loop_mono o sg _ _ _ _ _ H2 Hr). lia.
Qed.

Lemma st_call m id ts args rest r : m <= 210 ->
  runs_args o sg [] ts (Ok (args, rest)) -> runs_loop o sg m (NCall args id) rest r ->
  runs_loop o sg m (NRef id) ((TOpenParen, lit "(") :: ts) r.
Proof.
  intros Hm [n1 [H1 _]] [n2 [H2 Hr]]. exists (S (Nat.max n1 n2)). split; [|exact Hr].
  simpl. replace (210 <? m) with false by (symmetry; apply Nat.ltb_ge; lia).
  rewrite (args_mono o sg _ _ _ _ H1) by (discriminate || lia). simpl.
  apply (loop_mono o sg _ _ _ _ _ H2 Hr). lia.
Qed.

Lemma st_args_end a b ts : runs_args o sg a ((TCloseParen, b) :: ts) (Ok (rev a, ts)).
Proof. exists 1. split; [reflexivity|discriminate]. Qed.

Lemma st_args_comma a s ts r : runs_args o sg a ts r -> runs_args o sg a ((TComma, s) :: ts) r.
Proof. intros [n [H Hr]]. exists (S n). split; [exact H|exact Hr]. Qed.

Lemma st_args_arg a t s ts e rest r : t <> TCloseParen -> t <> TComma ->
  runs_expr o sg 0 ((t, s) :: ts) (Ok (e, rest)) -> runs_args o sg (e :: a) rest r ->
  runs_args o sg a ((t, s) :: ts) r.
Proof.
  intros N1 N2 [n1 [H1 _]] [n2 [H2 Hr]]. exists (S (Nat.max n1 n2)). split; [|exact Hr].
  assert (G : (do (e, r) <- expr_bp (Nat.max n1 n2) o sg 0 ((t, s) :: ts);
               call_args (Nat.max n1 n2) o sg (e :: a) r) = r).
  { rewrite (expr_mono o sg _ _ _ _ H1) by (discriminate || lia). simpl.
    apply (args_mono o sg _ _ _ _ H2 Hr). lia. }
  cbn [call_args peek fst]. destruct t; try congruence; exact G.
Qed.
End Steps.

(** ** Tokens of a printed tree *)
Definition sign_toks (s : option sign) : list tok :=
  match s with Some Positive => [(TOperator, lit "+")] | Some Negative => [(TOperator, lit "-")] | None => [] end.
Definition pct_toks (p : bool) : list tok := if p then [(TOperator, lit "%")] else [].
Definition comma_tok : tok := (TComma, lit ",").
Fixpoint sep_toks (l : list (list tok)) : list tok :=
  match l with
  | [] => []
  | [x] => x
  | x :: r => x ++ comma_tok :: sep_toks r
  end.
Fixpoint toks_of (n : node) : list tok :=
  match n with
  | NBool b => [(TReference, show (NBool b))]
  | NFloat p s v => sign_toks s ++ [(if all_digits v then TInteger else TFloat, v)] ++ pct_toks p
  | NInt p s v => sign_toks s ++ [(TInteger, show_Z v)] ++ pct_toks p
  | NRef r => [(TReference, r)]
  | NText t => [(TDoubleQuotedString, [c_dquote] ++ t ++ [c_dquote])]
  | NCall args name =>
      (TReference, name) :: (TOpenParen, lit "(") :: sep_toks (map toks_of args) ++ [(TCloseParen, lit ")")]
  | NInfix l op r =>
      (TOpenParen, lit "(") :: toks_of l ++ (TOperator, op) :: toks_of r ++ [(TCloseParen, lit ")")]
  | NFn _ _ _ | NDate _ | NVar _ _ => []
  end.

(** Induction on [printable] reaching into argument lists. *)
Lemma printable_induction (o : oracle) (P : node -> Prop) :
  (forall b, P (NBool b)) ->
  (forall p s n, (n <= I64_MAX)%N -> P (NFloat p s (dec n))) ->
  (forall p s v, decimal_text v -> f64_canon o v = Some v -> P (NFloat p s v)) ->
  (forall p s v, (0 <= v <= Z.of_N I64_MAX)%Z -> P (NInt p s v)) ->
  (forall r, ident (o_unicode o) r = true -> r <> lit "fn" -> P (NRef r)) ->
  (forall t, forallb (fun c => negb (c =? c_dquote)%N) t = true -> P (NText t)) ->
  (forall args name, ident (o_unicode o) name = true -> name <> lit "fn" ->
     Forall (printable o) args -> Forall P args -> P (NCall args name)) ->
  (forall l op r, In op infix_ops -> printable o l -> P l -> printable o r -> P r -> P (NInfix l op r)) ->
  forall n, printable o n -> P n.
Proof.
  intros H1 H2 H3 H4 H5 H6 H7 H8 n.
  induction n using node_induction; intro Hp; inversion Hp; subst; auto.
  apply H7; auto. rewrite Forall_forall in *. auto.
Qed.

(** ** Values of printed numbers and strings *)
Lemma show_Z_nonneg v : (0 <= v)%Z -> show_Z v = dec (Z.to_N v).
Proof. destruct v; simpl; intro; try reflexivity. lia. Qed.

Lemma parse_i64_dec n : (n <= I64_MAX)%N -> parse_i64 (dec n) = Some (Z.of_N n).
Proof.
  intro H. unfold parse_i64. rewrite dec_all_digits, dec_value.
  apply N.leb_le in H. rewrite H. reflexivity.
Qed.

Lemma unquote_plain : forall t acc, forallb (fun c => negb (c =? c_dquote)%N) t = true ->
  unquote_loop (t ++ [c_dquote]) true false acc = inr (rev acc ++ t).
Proof.
  induction t as [|c t IH]; intros acc H; simpl in *.
  - rewrite app_nil_r. reflexivity.
  - apply andb_prop in H as [H1 H2]. apply negb_true_iff in H1. rewrite H1.
    rewrite IH by exact H2. simpl. rewrite <- app_assoc. reflexivity.
Qed.

Lemma text_unquote_plain t : forallb (fun c => negb (c =? c_dquote)%N) t = true ->
  text_unquote ([c_dquote] ++ t ++ [c_dquote]) = inr t.
Proof. intro H. simpl. rewrite unquote_plain by exact H. reflexivity. Qed.

Lemma decimal_not_digits v : decimal_text v -> all_digits v = false.
Proof.
  intros [a [b [-> [Ha Hb]]]]. unfold all_digits. destruct a; [discriminate|]. simpl.
  rewrite forallb_app. simpl. rewrite andb_false_r, andb_false_r. reflexivity.
Qed.

Lemma infix_ops_class op : In op infix_ops -> exists p, infix_class op = Some p /\ 11 <= p <= 15.
Proof.
  simpl. intros H.
  repeat (destruct H as [<-|H]; [eexists; split; [vm_compute; reflexivity|lia]|]). contradiction.
Qed.

(** ** The parser reads the tokens of a printable tree as its canonical form *)
(** Tokens that may follow an operand. *)
Definition follow (sg : bool) (ts : list tok) : Prop :=
  stop_tok sg (fst (peek ts)) = true
  \/ (exists r, ts = (TOperator, lit "%") :: r)
  \/ (exists op r, ts = (TOperator, op) :: r /\ In op infix_ops).

Lemma follow_break o sg l ts : follow sg ts -> runs_loop o sg 170 l ts (Ok (l, ts)).
Proof.
  intros [H | [[r ->] | [op [r [-> H]]]]].
  - apply st_stop. exact H.
  - apply st_percent_break. lia.
  - destruct (infix_ops_class op H) as [p [Hc Hp]]. eapply st_infix_break; eauto; lia.
Qed.

Lemma toks_of_head o n : printable o n -> exists t s r, toks_of n = (t, s) :: r /\ t <> TCloseParen /\ t <> TComma.
Proof.
  intro H. inversion H; subst; simpl; try (repeat eexists; discriminate);
    destruct s as [[]|]; simpl; try (repeat eexists; discriminate);
    destruct (all_digits _); repeat eexists; discriminate.
Qed.

Lemma st_args_node o sg a n rest e rest' r : printable o n ->
  runs_expr o sg 0 (toks_of n ++ rest) (Ok (e, rest')) -> runs_args o sg (e :: a) rest' r ->
  runs_args o sg a (toks_of n ++ rest) r.
Proof.
  intros Hn H1 H2. destruct (toks_of_head o n Hn) as [t [s [tr [Ht [N1 N2]]]]].
  rewrite Ht in *. simpl in *. eapply st_args_arg; eauto.
Qed.

(** a signed, possibly percent, number *)
Lemma read_number o sg m s p t v e rest r (mk : bool -> option sign -> node) :
  is_operand t = true -> ast_try_from o (t, v) = inr (mk false None) ->
  (forall p s s', apply_sign s' (mk p s) = Some (mk p (Some s'))) ->
  (forall p s, apply_percent (mk p s) = Some (mk true s)) ->
  m <= 160 -> follow sg rest -> e = mk p s ->
  runs_loop o sg m e rest r ->
  runs_expr o sg m (sign_toks s ++ [(t, v)] ++ pct_toks p ++ rest) r.
Proof.
  intros Ht He Hs Hp Hm Hf -> Hrun.
  assert (Hpct : runs_loop o sg m (mk false s) (pct_toks p ++ rest) r).
  { destruct p; simpl; [|exact Hrun]. eapply st_percent; eauto. }
  assert (Hfp : follow sg (pct_toks p ++ rest)).
  { destruct p; simpl; [|exact Hf]. right. left. eexists. reflexivity. }
  destruct s as [[]|]; simpl.
  - eapply st_prefix; [right; split; reflexivity| | |exact Hpct].
    + eapply st_operand; eauto. apply follow_break. exact Hfp.
    + apply Hs.
  - eapply st_prefix; [left; split; reflexivity| | |exact Hpct].
    + eapply st_operand; eauto. apply follow_break. exact Hfp.
    + apply Hs.
  - eapply st_operand; eauto.
Qed.

Theorem read_back o sg n : printable o n -> forall m rest r, m <= 160 -> follow sg rest ->
  runs_loop o sg m (canonical n) rest r -> runs_expr o sg m (toks_of n ++ rest) r.
Proof.
  intro Hp. induction Hp using printable_induction; intros m rest res Hm Hf Hrun; simpl in *.
  - eapply st_operand; [reflexivity|reflexivity|exact Hrun].
  - unfold whole_text in Hrun. rewrite dec_all_digits in Hrun |- *. rewrite dec_value in Hrun.
    rewrite <- !app_assoc.
    eapply read_number with (mk := fun p s => NInt p s (Z.of_N n)); eauto.
    unfold ast_try_from. rewrite parse_i64_dec by assumption. reflexivity.
  - pose proof (decimal_not_digits v H) as Hd. unfold whole_text in Hrun. rewrite Hd in Hrun |- *.
    rewrite <- !app_assoc.
    eapply read_number with (mk := fun p s => NFloat p s v); eauto.
    unfold ast_try_from. rewrite H0. reflexivity.
  - rewrite <- !app_assoc.
    eapply read_number with (mk := fun p s => NInt p s v); eauto.
    unfold ast_try_from. rewrite show_Z_nonneg by lia. rewrite parse_i64_dec by (unfold I64_MAX in *; lia).
    rewrite Z2N.id by lia. reflexivity.
  - eapply st_operand; [reflexivity|reflexivity|exact Hrun].
  - eapply st_operand; [reflexivity| |exact Hrun].
    unfold ast_try_from. change (c_dquote :: t ++ [c_dquote]) with ([c_dquote] ++ t ++ [c_dquote]).
    rewrite text_unquote_plain by assumption. reflexivity.
  - eapply st_operand; [reflexivity|reflexivity|].
    rewrite <- app_assoc.
    eapply st_call; [lia| |exact Hrun].
    clear Hrun H H0 Hf.
    change (map canonical args) with (rev [] ++ map canonical args).
    generalize (@nil node) as acc.
    induction args as [|a args IH]; intro acc.
    { simpl. rewrite app_nil_r. apply st_args_end. }
    inversion H1; subst. inversion H2; subst.
    specialize (IH H4 H6 (canonical a :: acc)).
    destruct args as [|b args].
    + simpl in *. eapply st_args_node; [exact H3| |].
      * apply H5; [lia|left; reflexivity|]. apply st_stop. reflexivity.
      * rewrite app_nil_r in IH. exact IH.
    + cbn [map sep_toks]. rewrite <- app_assoc. eapply st_args_node; [exact H3| |].
      * apply H5; [lia|left; reflexivity|]. apply st_stop. reflexivity.
      * eapply st_args_comma. cbn [map sep_toks] in IH. simpl rev in IH. rewrite <- app_assoc in IH. exact IH.
  - destruct (infix_ops_class op H) as [p [Hc Hpp]].
    rewrite <- !app_assoc. simpl. rewrite <- app_assoc.
    eapply st_paren; [|exact Hrun].
    apply IHHp1; [lia|right; right; eauto|].
    eapply st_infix; [exact Hc|lia|lia| |].
    + apply IHHp2; [lia|left; reflexivity|]. apply st_stop. reflexivity.
    + apply st_stop. reflexivity.
Qed.

(** ** Chains *)
Fixpoint chain_toks (c : chain) : list tok :=
  match c with
  | Operand n => toks_of n
  | Chain l op r => chain_toks l ++ (TOperator, op) :: chain_toks r
  end.
(** the next infix operator, if any, binds less than p *)
Definition next_below (sg : bool) (p : nat) (ts : list tok) : Prop :=
  stop_tok sg (fst (peek ts)) = true
  \/ exists op q r, ts = (TOperator, op) :: r /\ In op infix_ops /\ infix_class op = Some q /\ q < p.

Lemma next_below_follow sg p ts : next_below sg p ts -> follow sg ts.
Proof. intros [H | [op [q [r [-> [H _]]]]]]; [left; exact H|right; right; eauto]. Qed.
Lemma next_below_le sg p q ts : p <= q -> next_below sg p ts -> next_below sg q ts.
Proof. intros L [H | [op [k [r [-> [H [Hc Hk]]]]]]]; [left; exact H|right]. exists op, k, r. repeat split; auto. lia. Qed.

Theorem read_chain o sg c : chain_ok o c -> right_grouped c ->
  forall m rest r, m <= top_class c * 10 + 1 -> m <= 160 -> next_below sg (top_class c) rest ->
  runs_loop o sg m (chain_tree c) rest r -> runs_expr o sg m (chain_toks c ++ rest) r.
Proof.
  induction c as [n|l IHl op r0 IHr]; simpl; intros Hok Hg m rest res Hm1 Hm2 Hnext Hrun.
  - apply read_back; auto. eapply next_below_follow; eauto.
  - destruct Hok as [Hokl Hokr]. destruct Hg as [Hgl [Hgr [Hin [Hl Hr]]]].
    destruct (infix_ops_class op Hin) as [p [Hc Hp]]. rewrite Hc in *.
    rewrite <- app_assoc. simpl. apply IHl; auto; try lia.
    + right. exists op, p, (chain_toks r0 ++ rest). repeat split; auto.
    + eapply st_infix; [exact Hc|lia|lia| |exact Hrun].
      apply IHr; auto; try lia.
      * eapply next_below_le; [|exact Hnext]. lia.
      * destruct Hnext as [H | [op' [q [r' [-> [Hin' [Hc' Hq]]]]]]].
        -- apply st_stop. exact H.
        -- eapply st_infix_break; [exact Hc'| |]; lia.
Qed.
