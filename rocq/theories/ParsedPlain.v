(** * ParsedPlain: what the parser builds has the shape the evaluation theorems assume. *)
From Verif Require Import Base BaseProofs Csvp Ast AstProofs AstLexer AstParser Eval EvalSpec EvalProofs.

Lemma try_from_plain o t e : ast_try_from o t = inr e -> plain e.
Proof.
  unfold ast_try_from. intro H.
  repeat match type of H with
  | context [match ?x with _ => _ end] => destruct x
  end; try discriminate; inversion H; exact I.
Qed.
Lemma sign_plain s n n' : apply_sign s n = Some n' -> plain n'.
Proof. destruct n; simpl; intro H; inversion H; exact I. Qed.
Lemma percent_plain n n' : apply_percent n = Some n' -> plain n'.
Proof. destruct n; simpl; intro H; inversion H; exact I. Qed.

Ltac bind2 H := let p := fresh "p" in let E := fresh "E" in
  apply bind_ok_inv in H as [p [E H]]; destruct p.
Lemma parsed_plain_mutual o sg : forall fuel,
  (forall bp ts e r, expr_bp fuel o sg bp ts = Ok (e, r) -> plain e)
  /\ (forall bp l ts e r, plain l -> bp_loop fuel o sg bp l ts = Ok (e, r) -> plain e)
  /\ (forall acc ts es r, Forall plain acc -> call_args fuel o sg acc ts = Ok (es, r) -> Forall plain es).
Proof.
  induction fuel as [|fuel [IH1 [IH2 IH3]]]; [repeat split; intros; discriminate|].
  split; [|split].
  - intros bp ts e r H. cbn [expr_bp] in H. destruct ts as [|[t s] ts]; [discriminate|].
    destruct t; try discriminate;
      try (destruct (ast_try_from o _) eqn:E in H; [discriminate|]; apply try_from_plain in E; eapply IH2; eauto; fail).
    + bind2 H. destruct l as [|[[] ?] ?]; try discriminate. eapply IH2; eauto.
    + destruct (prefix_power s); [|discriminate]. bind2 H.
      destruct (apply_sign _ _) eqn:E1 in H; [|discriminate]. apply sign_plain in E1. eapply IH2; eauto.
  - intros bp l ts e r Hl H. cbn [bp_loop] in H. destruct (peek ts) as [t op].
    destruct (match t with TReference | TFunctionDefinition => sg | _ => false end); [inversion H; subst; assumption|].
    assert (G : forall r0, (match postfix_power op with
          | Some l_bp =>
              if l_bp <? bp then Ok (l, ts)
              else if str_eqb op (lit "(") then
                match l with
                | NRef id =>
                    do (args, r) <- call_args fuel o sg [] (tl ts);
                    bp_loop fuel o sg bp (NCall args id) r
                | _ => fail ENotAFunctionId ts
                end
              else if str_eqb op (lit "%") then
                match apply_percent l with
                | Some e => bp_loop fuel o sg bp e (tl ts)
                | None => fail EPercentOnNonNumber ts
                end
              else fail EUnexpectedPostfix ts
          | None =>
              match infix_power op with
              | Some (l_bp, r_bp) =>
                  if l_bp <? bp then Ok (l, ts)
                  else
                    do (rhs, r) <- expr_bp fuel o sg r_bp (tl ts);
                    bp_loop fuel o sg bp (NInfix l op rhs) r
              | None => Ok (l, ts)
              end
          end = Ok (e, r0)) -> plain e).
    { clear H. intros r0 H. destruct (postfix_power op).
      - destruct (_ <? bp); [inversion H; subst; assumption|]. destruct (str_eqb op (lit "(")).
        + destruct l; try discriminate. bind2 H. eapply IH2; [|exact H]. apply plain_call. eapply IH3; [|exact E]. constructor.
        + destruct (str_eqb op (lit "%")); [|discriminate].
          destruct (apply_percent l) eqn:E; [|discriminate]. apply percent_plain in E. eapply IH2; eauto.
      - destruct (infix_power op) as [[l_bp r_bp]|]; [|inversion H; subst; assumption].
        destruct (l_bp <? bp); [inversion H; subst; assumption|]. bind2 H. eapply IH2; [|exact H]. split; [assumption|].
        eapply IH1; eauto. }
    destruct t; try discriminate; try (inversion H; subst; assumption); eapply G; exact H.
  - intros acc ts es r Ha H. cbn [call_args] in H.
    assert (G : forall q, (do (e, r) <- expr_bp fuel o sg 0 ts; call_args fuel o sg (e :: acc) r) = Ok (es, q) -> Forall plain es).
    { clear H. intros q H. bind2 H. eapply IH3; [|exact H]. constructor; eauto. }
    destruct (fst (peek ts)); try (eapply G; exact H).
    + inversion H; subst. apply Forall_rev. assumption.
    + eapply IH3; eauto.
Qed.
Lemma unknown_error_not_ok {A} u (a : A) : unknown_error u <> Ok a.
Proof. unfold unknown_error. destruct (_ <=? _); [discriminate|]. destruct (byte_split _ _) as [[? ?]|]; discriminate. Qed.
Lemma locate_ok {A} lx (r : outcome perr A) a : locate lx r = Ok a -> r = Ok a.
Proof. destruct r; simpl; intro H; inversion H; reflexivity. Qed.
Theorem parsed_plain o sg s n : ast_parse o sg s = Ok n -> plain n.
Proof.
  unfold ast_parse. destruct (ast_lex (o_unicode o) s) as [lx|u| |]; try discriminate; [|intro H; exfalso; revert H; apply unknown_error_not_ok]. intro H.
  apply locate_ok in H. bind2 H. inversion H; subst. eapply (proj1 (parsed_plain_mutual o sg _)); eauto.
Qed.

(** every definition of a code section *)
Definition plain_defs (sc : scope) : Prop :=
  (forall f g, assoc f (functions sc) = Some g -> exists ps body name, g = NFn ps body name /\ plain body)
  /\ (forall x g, assoc x (variables sc) = Some g -> exists name v, g = NVar name (VAst v) /\ plain v).
Lemma plain_defs_scope sc pos : plain_defs sc -> plain_scope sc pos.
Proof.
  intros [Hf Hv]. split; [|assumption]. intros x r H. unfold variable_node in H.
  destruct (assoc x (variables sc)) as [g|] eqn:E; [|discriminate].
  destruct (Hv _ _ E) as [name [v [-> Hp]]]. exists v. split; [|assumption]. destruct pos; simpl in H; congruence.
Qed.
Lemma assoc_insert_cases {A} k (v : A) m x y : assoc x (assoc_insert k v m) = Some y -> (x = k /\ y = v) \/ assoc x m = Some y.
Proof.
  intro H. destruct (str_eqb_spec x k) as [->|Hn].
  - rewrite assoc_insert_same in H. left. inversion H. auto.
  - rewrite assoc_insert_other in H; auto.
Qed.
Lemma parse_scope_plain o : forall fuel ts sc req sc' req', plain_defs sc ->
  parse_scope fuel o ts sc req = Ok (sc', req') -> plain_defs sc'.
Proof.
  induction fuel as [|fuel IH]; intros ts sc req sc' req' [Hf Hv] H; [discriminate|]. cbn [parse_scope] in H.
  destruct ts as [|[t s] ts]; [inversion H; subst; split; assumption|].
  destruct t; try discriminate.
  - unfold parse_fn_definition in H. bind2 H. destruct p as [name fn]. eapply IH; [|exact H].
    destruct ts as [|[[] nm] ts]; try discriminate. destruct ts as [|[[] ?] ts]; try discriminate.
    bind2 E. bind2 E. inversion E; subst. clear E. split; [|assumption].
    intros f g Hg. apply assoc_insert_cases in Hg as [[-> ->]|Hg]; [|first [exact (Hf _ _ Hg)|exact (Hv _ _ Hg)]].
    do 3 eexists. split; [reflexivity|]. unfold section_expr in E1. eapply (proj1 (parsed_plain_mutual o true _)); eauto.
  - unfold parse_variable_assign in H. bind2 H. eapply IH; [|exact H].
    destruct ts as [|[[] ?] ts]; try discriminate. split; [assumption|].
    intros f g Hg. apply assoc_insert_cases in Hg as [[-> ->]|Hg]; [|first [exact (Hf _ _ Hg)|exact (Hv _ _ Hg)]].
    do 2 eexists. split; [reflexivity|]. unfold section_expr in E. eapply (proj1 (parsed_plain_mutual o true _)); eauto.
  - eapply IH; [|exact H]. split; assumption.
Qed.
Theorem section_plain o s sc req : code_section_parse o s = Ok (sc, req) -> plain_defs sc.
Proof.
  unfold code_section_parse. destruct (ast_lex (o_unicode o) s) as [lx|u| |]; try discriminate; [|intro H; exfalso; revert H; apply unknown_error_not_ok]. intro H.
  apply locate_ok in H. eapply parse_scope_plain; [|exact H]. split; intros ? ? E; discriminate E.
Qed.
