(** * AstParserProofs: the expression parser terminates, reads a prefix of its tokens, and builds
    the tree the grammar gives for that prefix. *)
From Verif Require Import Base BaseProofs Csvp Ast AstLexer AstParser.

Global Arguments ast_try_from : simpl never.

(** ** Fuel monotonicity *)
Lemma parser_mono o sg : forall n,
  (forall m ts r, expr_bp n o sg m ts = r -> r <> NoFuel -> forall k, n <= k -> expr_bp k o sg m ts = r)
  /\ (forall m l ts r, bp_loop n o sg m l ts = r -> r <> NoFuel -> forall k, n <= k -> bp_loop k o sg m l ts = r)
  /\ (forall a ts r, call_args n o sg a ts = r -> r <> NoFuel -> forall k, n <= k -> call_args k o sg a ts = r).
Proof.
  induction n as [|n [IHe [IHl IHa]]].
  - repeat split; intros; simpl in *; congruence.
  - assert (He: forall m ts k, n <= k -> expr_bp n o sg m ts <> NoFuel -> expr_bp k o sg m ts = expr_bp n o sg m ts)
      by (intros; eapply IHe; eauto).
    assert (Hl: forall m l ts k, n <= k -> bp_loop n o sg m l ts <> NoFuel -> bp_loop k o sg m l ts = bp_loop n o sg m l ts)
      by (intros; eapply IHl; eauto).
    assert (Ha: forall a ts k, n <= k -> call_args n o sg a ts <> NoFuel -> call_args k o sg a ts = call_args n o sg a ts)
      by (intros; eapply IHa; eauto).
    clear IHe IHl IHa.
    repeat split.
    + intros m ts r <- Hr k Hk. destruct k as [|k]; [lia|]. assert (n <= k) by lia. simpl in *.
      destruct ts as [|[[] s] ts]; try reflexivity;
        try (destruct (ast_try_from o _); [reflexivity|apply Hl; assumption]).
      * destruct (expr_bp n o sg 0 ts) as [[e r1]| | |] eqn:E; simpl in *; try congruence;
          rewrite (He 0 ts k) by (assumption || congruence); rewrite E; simpl; try reflexivity.
        destruct r1 as [|[[] s1] r1]; try reflexivity. apply Hl; assumption.
      * destruct (prefix_power s) as [p|]; [|reflexivity].
        destruct (expr_bp n o sg p ts) as [[e r1]| | |] eqn:E; simpl in *; try congruence;
          rewrite (He p ts k) by (assumption || congruence); rewrite E; simpl; try reflexivity.
        destruct (apply_sign _ e); [|reflexivity]. apply Hl; assumption.
    + intros m l ts r <- Hr k Hk. destruct k as [|k]; [lia|]. assert (n <= k) by lia. simpl in *.
      destruct (peek ts) as [t op].
      destruct (match t with TReference | TFunctionDefinition => sg | _ => false end); [reflexivity|].
      assert (Hcase :
        forall t', (match postfix_power op with
          | Some l_bp => if l_bp <? m then Ok (l, ts) else
              if str_eqb op (lit "(") then
                match l with NRef id => do (args, r) <- call_args n o sg [] (tl ts); bp_loop n o sg m (NCall args id) r
                | _ => fail ENotAFunctionId ts end
              else if str_eqb op (lit "%") then
                match apply_percent l with Some e => bp_loop n o sg m e (tl ts) | None => fail EPercentOnNonNumber ts end
              else fail EUnexpectedPostfix ts
          | None => match infix_power op with
              | Some (l_bp, r_bp) => if l_bp <? m then Ok (l, ts) else
                  do (rhs, r) <- expr_bp n o sg r_bp (tl ts); bp_loop n o sg m (NInfix l op rhs) r
              | None => Ok (l, ts) end end) = t' -> t' <> NoFuel ->
          (match postfix_power op with
          | Some l_bp => if l_bp <? m then Ok (l, ts) else
              if str_eqb op (lit "(") then
                match l with NRef id => do (args, r) <- call_args k o sg [] (tl ts); bp_loop k o sg m (NCall args id) r
                | _ => fail ENotAFunctionId ts end
              else if str_eqb op (lit "%") then
                match apply_percent l with Some e => bp_loop k o sg m e (tl ts) | None => fail EPercentOnNonNumber ts end
              else fail EUnexpectedPostfix ts
          | None => match infix_power op with
              | Some (l_bp, r_bp) => if l_bp <? m then Ok (l, ts) else
                  do (rhs, r) <- expr_bp k o sg r_bp (tl ts); bp_loop k o sg m (NInfix l op rhs) r
              | None => Ok (l, ts) end end) = t').
      { intros t' <- Hne.
        destruct (postfix_power op) as [lb|].
        - destruct (lb <? m); [reflexivity|]. destruct (str_eqb op (lit "(")).
          + destruct l; try reflexivity.
            destruct (call_args n o sg [] (tl ts)) as [[a r1]| | |] eqn:E; simpl in *; try congruence;
              rewrite (Ha [] (tl ts) k) by (assumption || congruence); rewrite E; simpl; try reflexivity.
            apply Hl; assumption.
          + destruct (str_eqb op (lit "%")); [|reflexivity].
            destruct (apply_percent l); [|reflexivity]. apply Hl; assumption.
        - destruct (infix_power op) as [[lb rb]|]; [|reflexivity].
          destruct (lb <? m); [reflexivity|].
          destruct (expr_bp n o sg rb (tl ts)) as [[e r1]| | |] eqn:E; simpl in *; try congruence;
            rewrite (He rb (tl ts) k) by (assumption || congruence); rewrite E; simpl; try reflexivity.
          apply Hl; assumption. }
      destruct t; try reflexivity; apply Hcase; (reflexivity || assumption).
    + intros a ts r <- Hr k Hk. destruct k as [|k]; [lia|]. assert (n <= k) by lia. simpl in *.
      assert (Hdef: forall t', (do (e, r) <- expr_bp n o sg 0 ts; call_args n o sg (e :: a) r) = t' -> t' <> NoFuel ->
                (do (e, r) <- expr_bp k o sg 0 ts; call_args k o sg (e :: a) r) = t').
      { intros t' <- Hne. destruct (expr_bp n o sg 0 ts) as [[e r1]| | |] eqn:E; simpl in *; try congruence;
            rewrite (He 0 ts k) by (assumption || congruence); rewrite E; simpl; try reflexivity.
          apply Ha; assumption. }
      destruct (fst (peek ts)); try reflexivity; try (apply Hdef; (reflexivity || assumption)).
      apply Ha; assumption.
Qed.
Definition expr_mono o sg n m ts r H := proj1 (parser_mono o sg n) m ts r H.
Definition loop_mono o sg n m l ts r H := proj1 (proj2 (parser_mono o sg n)) m l ts r H.
Definition args_mono o sg n a ts r H := proj2 (proj2 (parser_mono o sg n)) a ts r H.

(** ** The parser reads a prefix that the grammar derives *)
From Verif Require Import FormulaSpec.

(** The grammar as the parser follows it: it looks at the text of an operator or opening
    parenthesis, not at its kind. *)
Inductive expr_of' (o : oracle) : list tok -> node -> Prop :=
| e_operand' t s n :
    is_operand t = true -> ast_try_from o (t, s) = inr n -> expr_of' o [(t, s)] n
| e_paren' a b ts n :
    expr_of' o ts n -> expr_of' o ((TOpenParen, a) :: ts ++ [(TCloseParen, b)]) n
| e_plus' ts n n' :
    expr_of' o ts n -> apply_sign Positive n = Some n' -> expr_of' o ((TOperator, lit "+") :: ts) n'
| e_minus' ts n n' :
    expr_of' o ts n -> apply_sign Negative n = Some n' -> expr_of' o ((TOperator, lit "-") :: ts) n'
| e_percent' t ts n n' : t = TOperator \/ t = TOpenParen ->
    expr_of' o ts n -> apply_percent n = Some n' -> expr_of' o (ts ++ [(t, lit "%")]) n'
| e_call' t f ts b args id : t = TOperator \/ t = TOpenParen ->
    expr_of' o f (NRef id) -> args_of' o ts args ->
    expr_of' o (f ++ (t, lit "(") :: ts ++ [(TCloseParen, b)]) (NCall args id)
| e_infix' t ls rs l op r p : t = TOperator \/ t = TOpenParen ->
    expr_of' o ls l -> infix_class op = Some p -> expr_of' o rs r ->
    expr_of' o (ls ++ (t, op) :: rs) (NInfix l op r)
with args_of' (o : oracle) : list tok -> list node -> Prop :=
| a_nil' : args_of' o [] []
| a_comma' s ts args : args_of' o ts args -> args_of' o ((TComma, s) :: ts) args
| a_arg' es ts n args : expr_of' o es n -> args_of' o ts args -> args_of' o (es ++ ts) (n :: args).
Scheme expr_of'_mut := Induction for expr_of' Sort Prop
  with args_of'_mut := Induction for args_of' Sort Prop.

Lemma prefix_power_inv op p : prefix_power op = Some p ->
  p = 170 /\ (op = lit "+" \/ op = lit "-").
Proof.
  unfold prefix_power. destruct (str_eqb_spec op (lit "+")); destruct (str_eqb_spec op (lit "-"));
    simpl; intro H; inversion H; subst; auto.
Qed.

Definition stop_tok (sg : bool) (t : token) : bool :=
  match t with
  | TComma | TCloseParen | TEof => true
  | TReference | TFunctionDefinition => sg
  | _ => false
  end.

Lemma parser_sound o sg : forall n,
  (forall m ts e r, expr_bp n o sg m ts = Ok (e, r) ->
     exists used, ts = used ++ r /\ expr_of' o used e /\ used <> [])
  /\ (forall m l ts e r, bp_loop n o sg m l ts = Ok (e, r) -> forall pre, expr_of' o pre l ->
     exists used, ts = used ++ r /\ expr_of' o (pre ++ used) e)
  /\ (forall a ts es r, call_args n o sg a ts = Ok (es, r) ->
     exists used b es', ts = used ++ (TCloseParen, b) :: r /\ args_of' o used es' /\ es = rev a ++ es').
Proof.
  induction n as [|n [IHe [IHl IHa]]].
  - repeat split; intros; simpl in *; congruence.
  - repeat split.
    + intros m ts e r H. simpl in H.
      assert (Hop : forall t s ts', is_operand t = true ->
        (match ast_try_from o (t, s) with inl k => fail k ((t, s) :: ts') | inr e0 => bp_loop n o sg m e0 ts' end) = Ok (e, r) ->
        exists used, (t, s) :: ts' = used ++ r /\ expr_of' o used e /\ used <> []).
      { intros t s ts' Ht H0. destruct (ast_try_from o (t, s)) as [k|e0] eqn:E; [discriminate|].
        destruct (IHl _ _ _ _ _ H0 [(t, s)]) as [used [-> Hu]]; [constructor; assumption|].
        exists ((t, s) :: used). simpl. repeat split; auto; discriminate. }
      destruct ts as [|[[] s] ts]; try discriminate; try (eapply Hop; [reflexivity|exact H]).
      * destruct (expr_bp n o sg 0 ts) as [[e0 r1]| | |] eqn:E; simpl in H; try discriminate.
        destruct r1 as [|[[] s1] r1]; try discriminate.
        apply IHe in E as [used [-> [Hd _]]].
        destruct (IHl _ _ _ _ _ H ((TOpenParen, s) :: used ++ [(TCloseParen, s1)])) as [u2 [-> Hu]];
          [constructor; assumption|].
        exists (((TOpenParen, s) :: used ++ [(TCloseParen, s1)]) ++ u2). split; [|split; [exact Hu|discriminate]].
        simpl. f_equal. rewrite <- !app_assoc. reflexivity.
      * destruct (prefix_power s) as [p|] eqn:P; [|discriminate].
        destruct (expr_bp n o sg p ts) as [[e0 r1]| | |] eqn:E; simpl in H; try discriminate.
        destruct (apply_sign _ e0) as [e'|] eqn:S; [|discriminate].
        apply IHe in E as [used [-> [Hd _]]].
        destruct (IHl _ _ _ _ _ H ((TOperator, s) :: used)) as [u2 [-> Hu]].
        { apply prefix_power_inv in P as [-> [-> | ->]]; simpl in S.
          - eapply e_plus'; eauto.
          - eapply e_minus'; eauto. }
        exists (((TOperator, s) :: used) ++ u2). split; [|split; [exact Hu|discriminate]].
        simpl. rewrite <- app_assoc. reflexivity.
    + intros m l ts e r H pre Hpre. simpl in H.
      destruct (peek ts) as [t op] eqn:Pk.
      destruct (match t with TReference | TFunctionDefinition => sg | _ => false end) eqn:Hst.
      { inversion H; subst. exists []. rewrite app_nil_r. auto. }
      assert (Hsame : Ok (l, ts) = Ok (e, r) :> outcome perr _ -> exists used, ts = used ++ r /\ expr_of' o (pre ++ used) e).
      { intro X; inversion X; subst. exists []. rewrite app_nil_r. auto. }
      assert (Hhd : (t = TOperator \/ t = TOpenParen) -> ts = (t, op) :: tl ts).
      { intro X. destruct ts as [|x ts']; simpl in Pk.
        - inversion Pk; subst. destruct X; discriminate.
        - subst x. reflexivity. }
      assert (Hgo : (t = TOperator \/ t = TOpenParen) ->
        (match postfix_power op with
          | Some l_bp => if l_bp <? m then Ok (l, ts) else
              if str_eqb op (lit "(") then
                match l with NRef id => do (args, r) <- call_args n o sg [] (tl ts); bp_loop n o sg m (NCall args id) r
                | _ => fail ENotAFunctionId ts end
              else if str_eqb op (lit "%") then
                match apply_percent l with Some e => bp_loop n o sg m e (tl ts) | None => fail EPercentOnNonNumber ts end
              else fail EUnexpectedPostfix ts
          | None => match infix_power op with
              | Some (l_bp, r_bp) => if l_bp <? m then Ok (l, ts) else
                  do (rhs, r) <- expr_bp n o sg r_bp (tl ts); bp_loop n o sg m (NInfix l op rhs) r
              | None => Ok (l, ts) end end) = Ok (e, r) -> exists used, ts = used ++ r /\ expr_of' o (pre ++ used) e).
      { intros Ht H0. specialize (Hhd Ht). clear H.
        destruct (postfix_power op) as [lb|].
        - destruct (lb <? m); [auto|]. destruct (str_eqb_spec op (lit "(")).
          + destruct l; try discriminate.
            destruct (call_args n o sg [] (tl ts)) as [[a r1]| | |] eqn:E; simpl in H0; try discriminate.
            apply IHa in E as [used [b [es' [Hts [Hargs ->]]]]]. simpl in H0.
            destruct (IHl _ _ _ _ _ H0 (pre ++ (t, lit "(") :: used ++ [(TCloseParen, b)])) as [u2 [-> Hu]].
            { constructor; assumption. }
            exists (((t, lit "(") :: used ++ [(TCloseParen, b)]) ++ u2). split.
            * rewrite Hhd, Hts. subst op. simpl. f_equal. rewrite <- !app_assoc. reflexivity.
            * rewrite <- app_assoc in Hu. exact Hu.
          + destruct (str_eqb_spec op (lit "%")); [|discriminate].
            destruct (apply_percent l) as [ep|] eqn:Pc; [|discriminate].
            destruct (IHl _ _ _ _ _ H0 (pre ++ [(t, lit "%")])) as [u2 [Hts Hu]].
            { econstructor; eauto. }
            exists ([(t, lit "%")] ++ u2). split.
            * rewrite Hhd, Hts. subst op. reflexivity.
            * rewrite <- app_assoc in Hu. exact Hu.
        - unfold infix_power in H0. destruct (infix_class op) as [p|] eqn:Ic; [|auto].
          destruct (p * 10 + 1 <? m); [auto|].
          destruct (expr_bp n o sg (p * 10) (tl ts)) as [[e0 r1]| | |] eqn:E; simpl in H0; try discriminate.
          apply IHe in E as [used [Hts [Hd _]]].
          destruct (IHl _ _ _ _ _ H0 (pre ++ (t, op) :: used)) as [u2 [-> Hu]].
          { econstructor; eauto. }
          exists (((t, op) :: used) ++ u2). split.
          * rewrite Hhd, Hts. simpl. rewrite <- app_assoc. reflexivity.
          * rewrite <- app_assoc in Hu. exact Hu. }
      destruct t; try discriminate; auto.
    + intros a ts es r H. simpl in H.
      assert (Hdef : (do (e, r) <- expr_bp n o sg 0 ts; call_args n o sg (e :: a) r) = Ok (es, r) ->
        exists used b es', ts = used ++ (TCloseParen, b) :: r /\ args_of' o used es' /\ es = rev a ++ es').
      { intro H0. destruct (expr_bp n o sg 0 ts) as [[e r1]| | |] eqn:E; simpl in H0; try discriminate.
        apply IHe in E as [used [-> [Hd _]]].
        apply IHa in H0 as [u2 [b [es' [-> [Ha' ->]]]]].
        exists (used ++ u2), b, (e :: es'). split; [rewrite <- app_assoc; reflexivity|]. split.
        - constructor; assumption.
        - simpl. rewrite <- app_assoc. reflexivity. }
      destruct ts as [|[t s] ts]; [exact (Hdef H)|].
      destruct t; try exact (Hdef H); simpl in H.
      * inversion H; subst. exists [], s, []. rewrite app_nil_r. repeat split. constructor.
      * apply IHa in H as [used [b [es' [-> [Ha' ->]]]]].
        exists ((TComma, s) :: used), b, es'. repeat split. constructor; assumption.
Qed.

(** Tokens as the lexer produces them: operators from the table, parentheses spelled so. *)
Definition lexer_tok (t : tok) : Prop :=
  match fst t with
  | TOperator => In (snd t) operators
  | TOpenParen => snd t = lit "("
  | TEof => False
  | _ => True
  end.

(** What the parser leaves unread starts with a token at which an expression may end. *)
Lemma loop_stop o sg : forall n l ts e r, Forall lexer_tok ts ->
  bp_loop n o sg 0 l ts = Ok (e, r) -> stop_tok sg (fst (peek r)) = true.
Proof.
  induction n as [|n IH]; intros l ts e r Hf H; [discriminate|].
  simpl in H. destruct (peek ts) as [t op] eqn:Pk.
  destruct (match t with TReference | TFunctionDefinition => sg | _ => false end) eqn:Hst.
  { inversion H; subst. rewrite Pk. simpl. destruct t; try discriminate; assumption. }
  assert (Hhd : t <> TEof -> ts = (t, op) :: tl ts /\ lexer_tok (t, op)).
  { intro X. destruct ts as [|x ts']; simpl in Pk; [inversion Pk; subst; congruence|].
    subst x. inversion Hf; subst. auto. }
  assert (Htl : Forall lexer_tok (tl ts)).
  { destruct ts; [constructor|]. inversion Hf; assumption. }
  destruct t; try discriminate; try (inversion H; subst; rewrite Pk; reflexivity).
  - destruct Hhd as [_ Hop]; [discriminate|]. unfold lexer_tok in Hop. simpl in Hop. subst op.
    simpl in H. destruct l; try discriminate.
    destruct (call_args n o sg [] (tl ts)) as [[a r1]| | |] eqn:E; simpl in H; try discriminate.
    apply (proj2 (proj2 (parser_sound o sg n))) in E as [used [b [es' [E1 _]]]].
    apply IH in H; [assumption|].
    rewrite E1 in Htl. apply Forall_app in Htl as [_ Htl]. inversion Htl; assumption.
  - destruct Hhd as [_ Hop]; [discriminate|]. unfold lexer_tok in Hop.
    simpl in Hop.
    assert (Hinf : forall p, (do (rhs, r) <- expr_bp n o sg p (tl ts); bp_loop n o sg 0 (NInfix l op rhs) r) = Ok (e, r) ->
              stop_tok sg (fst (peek r)) = true).
    { intros p H0. destruct (expr_bp n o sg p (tl ts)) as [[e0 r1]| | |] eqn:E; simpl in H0; try discriminate.
      apply (proj1 (parser_sound o sg n)) in E as [used [E1 _]].
      apply IH in H0; [assumption|]. rewrite E1 in Htl. apply Forall_app in Htl as [_ Htl]. assumption. }
    destruct Hop as [<-|[<-|[<-|[<-|[<-|[<-|[<-|[<-|[<-|[<-|[<-|[<-|[<-|[]]]]]]]]]]]]]];
      try (exact (Hinf _ H)).
    simpl in H. destruct (apply_percent l); [|discriminate]. apply IH in H; assumption.
Qed.

Lemma expr_stop o sg : forall n ts e r, Forall lexer_tok ts ->
  expr_bp n o sg 0 ts = Ok (e, r) -> stop_tok sg (fst (peek r)) = true.
Proof.
  destruct n as [|n]; intros ts e r Hf H; [discriminate|]. simpl in H.
  assert (Hop : forall t s ts', Forall lexer_tok ts' ->
    (match ast_try_from o (t, s) with inl k => fail k ((t, s) :: ts') | inr e0 => bp_loop n o sg 0 e0 ts' end) = Ok (e, r) ->
    stop_tok sg (fst (peek r)) = true).
  { intros t s ts' Hf' H0. destruct (ast_try_from o (t, s)); [discriminate|]. eapply loop_stop; eauto. }
  destruct ts as [|[t s] ts]; [discriminate|]. inversion Hf; subst.
  destruct t; try discriminate; try (eapply Hop; [|exact H]; assumption).
  - destruct (expr_bp n o sg 0 ts) as [[e0 r1]| | |] eqn:E; simpl in H; try discriminate.
    destruct r1 as [|[[] s1] r1]; try discriminate.
    apply (proj1 (parser_sound o sg n)) in E as [used [E1 _]].
    eapply loop_stop; [|exact H]. subst ts. apply Forall_app in H3 as [_ X]. inversion X; assumption.
  - destruct (prefix_power s) as [p|]; [|discriminate].
    destruct (expr_bp n o sg p ts) as [[e0 r1]| | |] eqn:E; simpl in H; try discriminate.
    destruct (apply_sign _ e0) as [e'|]; [|discriminate].
    apply (proj1 (parser_sound o sg n)) in E as [used [E1 _]].
    eapply loop_stop; [|exact H]. subst ts. apply Forall_app in H3 as [_ X]. assumption.
  - exact (Hop TReference s ts H3 H).
Qed.

(** ** Termination: the fuel given always suffices, and there is no panic *)
Definition fine {A} (r : outcome perr A) : Prop := match r with Ok _ | Err _ => True | _ => False end.

Lemma parser_total o sg : forall n,
  (forall m ts, 2 * length ts + 1 <= n -> fine (expr_bp n o sg m ts))
  /\ (forall m l ts, 2 * length ts + 1 <= n -> fine (bp_loop n o sg m l ts))
  /\ (forall a ts, 2 * length ts + 2 <= n -> fine (call_args n o sg a ts)).
Proof.
  induction n as [|n [IHe [IHl IHa]]].
  - repeat split; intros; lia.
  - pose proof (parser_sound o sg n) as [Se [Sl Sa]].
    assert (Htl : forall ts : list tok, ts <> [] -> length (tl ts) + 1 = length ts).
    { intros [|x l] H; [congruence|]. simpl. lia. }
    repeat split.
    + intros m ts Hn. simpl.
      assert (Hop : forall t s (ts' : list tok), 2 * length ts' + 1 <= n ->
        fine (match ast_try_from o (t, s) with inl k => fail k ((t, s) :: ts') | inr e0 => bp_loop n o sg m e0 ts' end)).
      { intros. destruct (ast_try_from o (t, s)); [exact I|]. apply IHl. assumption. }
      destruct ts as [|[t s] ts]; [exact I|]. simpl length in Hn.
      destruct t; try exact I;
        try match goal with |- context [ast_try_from o (?t, s)] => refine (Hop t s ts _); lia end.
      * pose proof (IHe 0 ts ltac:(lia)) as F.
        destruct (expr_bp n o sg 0 ts) as [[e0 r1]| | |] eqn:E; simpl in *; try contradiction; try exact I.
        destruct r1 as [|[[] s1] r1]; try exact I.
        apply Se in E as [used [-> _]]. apply IHl. rewrite app_length in Hn. simpl in Hn. lia.
      * destruct (prefix_power s) as [p|]; [|exact I].
        pose proof (IHe p ts ltac:(lia)) as F.
        destruct (expr_bp n o sg p ts) as [[e0 r1]| | |] eqn:E; simpl in *; try contradiction; try exact I.
        destruct (apply_sign _ e0); [|exact I].
        apply Se in E as [used [-> _]]. apply IHl. rewrite app_length in Hn. lia.
    + intros m l ts Hn. simpl.
      destruct (peek ts) as [t op] eqn:Pk.
      destruct (match t with TReference | TFunctionDefinition => sg | _ => false end); [exact I|].
      assert (Hne : (t = TOperator \/ t = TOpenParen) -> ts <> []).
      { intros X ->. simpl in Pk. inversion Pk; subst. destruct X; discriminate. }
      assert (Hgo : (t = TOperator \/ t = TOpenParen) ->
        fine (match postfix_power op with
          | Some l_bp => if l_bp <? m then Ok (l, ts) else
              if str_eqb op (lit "(") then
                match l with NRef id => do (args, r) <- call_args n o sg [] (tl ts); bp_loop n o sg m (NCall args id) r
                | _ => fail ENotAFunctionId ts end
              else if str_eqb op (lit "%") then
                match apply_percent l with Some e => bp_loop n o sg m e (tl ts) | None => fail EPercentOnNonNumber ts end
              else fail EUnexpectedPostfix ts
          | None => match infix_power op with
              | Some (l_bp, r_bp) => if l_bp <? m then Ok (l, ts) else
                  do (rhs, r) <- expr_bp n o sg r_bp (tl ts); bp_loop n o sg m (NInfix l op rhs) r
              | None => Ok (l, ts) end end)).
      { intros X. apply Hne in X. apply Htl in X.
        destruct (postfix_power op) as [lb|].
        - destruct (lb <? m); [exact I|]. destruct (str_eqb op (lit "(")).
          + destruct l; try exact I.
            pose proof (IHa [] (tl ts) ltac:(lia)) as F.
            destruct (call_args n o sg [] (tl ts)) as [[a r1]| | |] eqn:E; simpl in *; try contradiction; try exact I.
            apply Sa in E as [used [b [es' [E1 _]]]]. apply IHl.
            rewrite E1 in X. rewrite app_length in X. simpl in X. lia.
          + destruct (str_eqb op (lit "%")); [|exact I].
            destruct (apply_percent l); [|exact I]. apply IHl. lia.
        - destruct (infix_power op) as [[lb rb]|]; [|exact I].
          destruct (lb <? m); [exact I|].
          pose proof (IHe rb (tl ts) ltac:(lia)) as F.
          destruct (expr_bp n o sg rb (tl ts)) as [[e0 r1]| | |] eqn:E; simpl in *; try contradiction; try exact I.
          apply Se in E as [used [E1 _]]. apply IHl. rewrite E1 in X. rewrite app_length in X. lia. }
      destruct t; try exact I; auto.
    + intros a ts Hn. simpl.
      assert (Hdef : fine (do (e, r) <- expr_bp n o sg 0 ts; call_args n o sg (e :: a) r)).
      { pose proof (IHe 0 ts ltac:(lia)) as F.
        destruct (expr_bp n o sg 0 ts) as [[e r1]| | |] eqn:E; simpl in *; try contradiction; try exact I.
        apply Se in E as [used [E1 [_ Hne]]]. apply IHa. subst ts. rewrite app_length in Hn.
        destruct used; [congruence|]. simpl in Hn. lia. }
      destruct ts as [|[t s] ts]; [exact Hdef|]. simpl length in Hn.
      destruct t; try exact Hdef; simpl; try exact I. apply IHa. lia.
Qed.

(** ** A fuel-free view of the parser *)
Definition runs_expr o sg m ts r := exists n, expr_bp n o sg m ts = r /\ r <> NoFuel.
Definition runs_loop o sg m l ts r := exists n, bp_loop n o sg m l ts = r /\ r <> NoFuel.
Definition runs_args o sg a ts r := exists n, call_args n o sg a ts = r /\ r <> NoFuel.

Lemma runs_expr_fuel o sg m ts r : runs_expr o sg m ts r ->
  expr_bp (parser_fuel ts) o sg m ts = r.
Proof.
  intros [n [H Hr]]. unfold parser_fuel.
  pose proof (proj1 (parser_total o sg (2 * length ts + 2)) m ts ltac:(lia)) as F.
  destruct (le_ge_dec n (2 * length ts + 2)) as [L|G].
  - eapply expr_mono; eauto.
  - symmetry. rewrite <- H. eapply expr_mono; [reflexivity| |exact G].
    intro X. rewrite X in F. exact F.
Qed.
