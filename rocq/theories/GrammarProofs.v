(** * GrammarProofs: the parser accepts exactly the grammar of GrammarSpec.v. *)
From Verif Require Import Base BaseProofs Csvp Ast AstLexer AstParser FormulaSpec AstParserProofs AstLexerProofs FormulaInv GrammarSpec.

Scheme primary_m := Induction for primary Sort Prop
  with applied_m := Induction for applied Sort Prop
  with signed_m := Induction for signed Sort Prop
  with percented_m := Induction for percented Sort Prop
  with infixed_m := Induction for infixed Sort Prop
  with arguments_m := Induction for arguments Sort Prop.
Combined Scheme grammar_mut from primary_m, applied_m, signed_m, percented_m, infixed_m, arguments_m.

Lemma binds_tier_class op p : binds_tier op p -> infix_class op = Some (10 + p) /\ postfix_power op = None /\ 1 <= p <= 5.
Proof.
  intro H. inversion H as [? I| |? I|? I|]; subst; try (repeat split; (reflexivity || lia));
    cbn [In] in I; repeat (destruct I as [<-|I]; [repeat split; (reflexivity || lia)|]); contradiction.
Qed.
Lemma operator_tier op : In op operators -> op = lit "%" \/ exists p, binds_tier op p.
Proof.
  unfold operators. intro H. cbn [In] in H.
  repeat (destruct H as [<-|H]; [first [left; reflexivity|right; eexists; first [apply b_concat|apply b_power|apply b_add; cbn; tauto|apply b_mul; cbn; tauto|apply b_compare; cbn; tauto]]|]). contradiction.
Qed.

Section Exact.
Variables (o : oracle) (code : bool).
Notation tier k := (100 + 10 * k).
(** what stops the loop at power [m] *)
Definition halts (m : nat) (ts : list tok) : Prop :=
  stop_tok code (fst (peek ts)) = true
  \/ exists s r, ts = (TOperator, s) :: r /\ ((exists p, binds_tier s p /\ S (tier p) < m) \/ (s = lit "%" /\ 160 < m)).
Lemma halts_le m m' ts : m <= m' -> halts m ts -> halts m' ts.
Proof. intros L [H|[s [r [-> [[p [B H]]|[-> H]]]]]]; [left; exact H|right; exists s, r; split; [reflexivity|left; exists p; split; [exact B|lia]]|right; exists (lit "%"), r; split; [reflexivity|right; split; [reflexivity|lia]]]. Qed.

Definition E m ts res := exists f, expr_bp f o code m ts = Ok res.
Definition L m l ts res := exists f, bp_loop f o code m l ts = Ok res.
Definition A acc ts res := exists f, call_args f o code acc ts = Ok res.
Lemma up_E f f' m ts res : expr_bp f o code m ts = Ok res -> f <= f' -> expr_bp f' o code m ts = Ok res.
Proof. intros H Le. eapply expr_mono; [exact H|discriminate|exact Le]. Qed.
Lemma up_L f f' m l ts res : bp_loop f o code m l ts = Ok res -> f <= f' -> bp_loop f' o code m l ts = Ok res.
Proof. intros H Le. eapply loop_mono; [exact H|discriminate|exact Le]. Qed.
Lemma up_A f f' a ts res : call_args f o code a ts = Ok res -> f <= f' -> call_args f' o code a ts = Ok res.
Proof. intros H Le. eapply args_mono; [exact H|discriminate|exact Le]. Qed.

Lemma L_halts m l ts : halts m ts -> L m l ts (l, ts).
Proof.
  intro H. exists 1. cbn [bp_loop]. destruct H as [H|[s [r [-> H]]]].
  - destruct (peek ts) as [t op]. cbn [fst] in H. destruct t; cbn [stop_tok] in H; try discriminate H; try reflexivity; rewrite H; reflexivity.
  - cbn [peek]. destruct H as [[p [B H]]|[-> H]].
    + destruct (binds_tier_class _ _ B) as [C [P _]]. rewrite P. unfold infix_power. rewrite C.
      destruct (Nat.ltb_spec ((10 + p) * 10 + 1) m); [reflexivity|lia].
    + change (postfix_power (lit "%")) with (Some 160). cbv iota beta. destruct (Nat.ltb_spec 160 m); [reflexivity|lia].
Qed.
Lemma E_operand m t s n r res : is_operand t = true -> ast_try_from o (t, s) = inr n -> L m n r res -> E m ((t, s) :: r) res.
Proof. intros I T [f H]. exists (S f). destruct t; try discriminate I; cbn [expr_bp]; rewrite T; exact H. Qed.
Lemma E_paren m ts e b r res : E 0 ts (e, (TCloseParen, b) :: r) -> L m e r res -> E m (open_paren :: ts) res.
Proof. intros [f H] [g G]. exists (S (max f g)). cbn [expr_bp open_paren]. rewrite (up_E _ _ _ _ _ H (Nat.le_max_l f g)). cbn [bind]. apply (up_L _ _ _ _ _ _ G (Nat.le_max_r f g)). Qed.
Lemma E_sign m sg op ts e e' r res : (sg = Positive /\ op = lit "+") \/ (sg = Negative /\ op = lit "-") -> E 170 ts (e, r) -> apply_sign sg e = Some e' -> L m e' r res -> E m ((TOperator, op) :: ts) res.
Proof.
  intros I [f H] S' [g G]. exists (S (max f g)). cbn [expr_bp]. replace (prefix_power op) with (Some 170) by (destruct I as [[_ ->]|[_ ->]]; reflexivity).
  cbv zeta. rewrite (up_E _ _ _ _ _ H (Nat.le_max_l f g)). cbn [bind]. replace (if str_eqb op (lit "+") then Positive else Negative) with sg by (destruct I as [[-> ->]|[-> ->]]; reflexivity).
  rewrite S'. apply (up_L _ _ _ _ _ _ G (Nat.le_max_r f g)).
Qed.
Lemma L_call m id ts args r res : m <= 210 -> A [] ts (args, r) -> L m (NCall args id) r res -> L m (NRef id) (open_paren :: ts) res.
Proof.
  intros M [f H] [g G]. exists (S (max f g)). cbn [bp_loop open_paren peek]. change (postfix_power (lit "(")) with (Some 210). cbv iota beta. destruct (Nat.ltb_spec 210 m); [lia|].
  change (str_eqb (lit "(") (lit "(")) with true. cbn [tl]. rewrite (up_A _ _ _ _ _ H (Nat.le_max_l f g)). cbn [bind]. apply (up_L _ _ _ _ _ _ G (Nat.le_max_r f g)).
Qed.
Lemma L_percent m l l' ts res : m <= 160 -> apply_percent l = Some l' -> L m l' ts res -> L m l ((TOperator, lit "%") :: ts) res.
Proof.
  intros M P [g G]. exists (S g). cbn [bp_loop peek]. change (postfix_power (lit "%")) with (Some 160). cbv iota beta. destruct (Nat.ltb_spec 160 m); [lia|].
  change (str_eqb (lit "%") (lit "(")) with false. change (str_eqb (lit "%") (lit "%")) with true. cbn [tl]. cbv iota. rewrite P. exact G.
Qed.
Lemma L_infix m l op p ts rhs r res : binds_tier op p -> m <= S (tier p) -> E (tier p) ts (rhs, r) -> L m (NInfix l op rhs) r res -> L m l ((TOperator, op) :: ts) res.
Proof.
  intros B M [f H] [g G]. exists (S (max f g)). cbn [bp_loop peek]. destruct (binds_tier_class _ _ B) as [C [P _]]. rewrite P. unfold infix_power. rewrite C.
  destruct (Nat.ltb_spec ((10 + p) * 10 + 1) m); [lia|]. cbn [tl]. replace ((10 + p) * 10) with (tier p) by lia. rewrite (up_E _ _ _ _ _ H (Nat.le_max_l f g)). cbn [bind]. apply (up_L _ _ _ _ _ _ G (Nat.le_max_r f g)).
Qed.
Lemma A_arg acc t s ts e r res : t <> TCloseParen -> t <> TComma -> E 0 ((t, s) :: ts) (e, r) -> A (e :: acc) r res -> A acc ((t, s) :: ts) res.
Proof.
  intros N1 N2 [f H] [g G]. exists (S (max f g)). cbn [call_args peek fst]. destruct t; try congruence; rewrite (up_E _ _ _ _ _ H (Nat.le_max_l f g)); cbn [bind]; apply (up_A _ _ _ _ _ G (Nat.le_max_r f g)).
Qed.

Definition starts (ts : list tok) : Prop := exists t s r, ts = (t, s) :: r /\ t <> TCloseParen /\ t <> TComma.
Lemma starts_app a b : starts a -> starts (a ++ b).
Proof. intros [t [s [r [-> H]]]]. exists t, s, (r ++ b). auto. Qed.
Lemma grammar_starts :
  (forall ts n, primary o code ts n -> starts ts) /\ (forall ts n, applied o code ts n -> starts ts) /\ (forall ts n, signed o code ts n -> starts ts)
  /\ (forall ts n, percented o code ts n -> starts ts) /\ (forall k ts n, infixed o code k ts n -> starts ts) /\ (forall ts a, arguments o code ts a -> True).
Proof.
  apply grammar_mut; intros; auto using starts_app.
  - exists t, s, []. destruct t; try discriminate; repeat split; discriminate.
  - unfold open_paren. do 3 eexists. split; [reflexivity|]. split; discriminate.
  - do 3 eexists. split; [reflexivity|]. split; discriminate.
  - do 3 eexists. split; [reflexivity|]. split; discriminate.
Qed.

(** Everything the grammar contains is accepted, as the tree it denotes. *)
Lemma grammar_complete :
  (forall ts n, primary o code ts n -> forall m rest res, L m n rest res -> E m (ts ++ rest) res)
  /\ (forall ts n, applied o code ts n -> forall m rest res, m <= 210 -> L m n rest res -> E m (ts ++ rest) res)
  /\ (forall ts n, signed o code ts n -> forall m rest res, m <= 210 -> halts 170 rest -> L m n rest res -> E m (ts ++ rest) res)
  /\ (forall ts n, percented o code ts n -> forall m rest res, m <= 160 -> halts 170 rest -> L m n rest res -> E m (ts ++ rest) res)
  /\ (forall k ts n, infixed o code k ts n -> forall m rest res, 1 <= k <= 6 -> m <= tier k -> halts (tier k) rest -> L m n rest res -> E m (ts ++ rest) res)
  /\ (forall ts args, arguments o code ts args -> forall acc b rest, A acc (ts ++ (TCloseParen, b) :: rest) (rev acc ++ args, rest)).
Proof.
  apply grammar_mut.
  - intros t s n I T m rest res H. apply (E_operand m t s n rest res I T H).
  - intros b ts n _ IH m rest res H. cbn [app]. rewrite <- app_assoc. cbn [app]. eapply E_paren; [|exact H]. apply IH; [lia|lia|left; reflexivity|apply L_halts; left; reflexivity].
  - intros ts n _ IH m rest res _ H. apply IH. exact H.
  - intros f ts b args id _ IHf _ IHa m rest res M H. rewrite <- app_assoc. apply IHf. cbn [app]. rewrite <- app_assoc. cbn [app]. eapply L_call; [exact M|apply (IHa [])|exact H].
  - intros ts n _ IH m rest res M _ H. apply IH; assumption.
  - intros ts n n' _ IH S' m rest res M Hh H. cbn [app]. eapply (E_sign m Positive); [auto| |exact S'|exact H]. apply IH; [lia|exact Hh|apply L_halts; exact Hh].
  - intros ts n n' _ IH S' m rest res M Hh H. cbn [app]. eapply (E_sign m Negative); [auto| |exact S'|exact H]. apply IH; [lia|exact Hh|apply L_halts; exact Hh].
  - intros ts n _ IH m rest res M Hh H. apply IH; [lia|exact Hh|exact H].
  - intros ts n n' _ IH P m rest res M Hh H. rewrite <- app_assoc. cbn [app]. apply IH; [exact M| |eapply L_percent; [exact M|exact P|exact H]].
    right. do 2 eexists. split; [reflexivity|]. right. split; [reflexivity|lia].
  - intros k ts n _ IH m rest res K M Hh H. apply IH; [lia|apply (halts_le (tier k)); [lia|exact Hh]|exact H].
  - intros k p ls op rs l r B Kp _ IHl _ IHr m rest res K M Hh H. destruct (binds_tier_class _ _ B) as [_ [_ P]].
    rewrite <- app_assoc. cbn [app]. apply IHl; [lia|lia| |].
    + right. do 2 eexists. split; [reflexivity|]. left. exists p. split; [exact B|lia].
    + eapply L_infix; [exact B|lia| |exact H]. assert (Hp : halts (tier p) rest) by (apply (halts_le (tier k)); [lia|exact Hh]). apply IHr; [lia|lia|exact Hp|apply L_halts; exact Hp].
  - intros acc b rest. exists 1. cbn [app call_args peek fst tl]. rewrite app_nil_r. reflexivity.
  - intros s ts args _ IH acc b rest. destruct (IH acc b rest) as [f H]. exists (S f). cbn [app call_args peek fst tl]. exact H.
  - intros es ts n args He IHe _ IHa Af acc b rest. rewrite <- app_assoc.
    assert (Q : E 0 (es ++ ts ++ (TCloseParen, b) :: rest) (n, ts ++ (TCloseParen, b) :: rest)).
    { assert (Hh : forall m, halts m (ts ++ (TCloseParen, b) :: rest)) by (intro m; left; destruct Af as [->|[[s [r ->]]|[C [s [r ->]]]]]; [reflexivity|reflexivity|exact C]).
      apply IHe; [lia|lia|apply Hh|apply L_halts; apply Hh]. }
    destruct (proj1 (proj2 (proj2 (proj2 (proj2 grammar_starts)))) _ _ _ He) as [t [s [r [-> [N1 N2]]]]]. cbn [app] in Q |- *.
    eapply A_arg; [exact N1|exact N2|exact Q|]. specialize (IHa (n :: acc) b rest). cbn [rev] in IHa. rewrite <- app_assoc in IHa. exact IHa.
Qed.

(** ** Everything the parser accepts is in the grammar *)
Lemma infixed_le k k' ts n : k' <= k -> infixed o code k ts n -> infixed o code k' ts n.
Proof. intros K H. inversion H; subst; [apply g_percented; assumption|eapply g_infix; eauto; lia]. Qed.
Lemma applied_ref ts id : applied o code ts (NRef id) -> primary o code ts (NRef id).
Proof. intro H. inversion H; subst. assumption. Qed.
Lemma apply_sign_ref sg n id : apply_sign sg n <> Some (NRef id).
Proof. destruct n; discriminate. Qed.
Lemma signed_ref ts id : signed o code ts (NRef id) -> primary o code ts (NRef id).
Proof. intro H. inversion H; subst; [apply applied_ref; assumption| |]; exfalso; eapply apply_sign_ref; eassumption. Qed.
Lemma percented_ref ts id : percented o code ts (NRef id) -> primary o code ts (NRef id).
Proof. intro H. inversion H as [|? n ? ? P]; subst; [apply signed_ref; assumption|]. destruct n; discriminate P. Qed.
Lemma arguments_head ts args : arguments o code ts args -> ts = [] \/ begins TComma ts \/ exists t s r, ts = (t, s) :: r /\ (is_operand t = true \/ t = TOpenParen \/ t = TOperator).
Proof.
  assert (H : (forall ts n, primary o code ts n -> exists t s r, ts = (t, s) :: r /\ (is_operand t = true \/ t = TOpenParen \/ t = TOperator))
    /\ (forall ts n, applied o code ts n -> exists t s r, ts = (t, s) :: r /\ (is_operand t = true \/ t = TOpenParen \/ t = TOperator))
    /\ (forall ts n, signed o code ts n -> exists t s r, ts = (t, s) :: r /\ (is_operand t = true \/ t = TOpenParen \/ t = TOperator))
    /\ (forall ts n, percented o code ts n -> exists t s r, ts = (t, s) :: r /\ (is_operand t = true \/ t = TOpenParen \/ t = TOperator))
    /\ (forall k ts n, infixed o code k ts n -> exists t s r, ts = (t, s) :: r /\ (is_operand t = true \/ t = TOpenParen \/ t = TOperator))
    /\ (forall ts args, arguments o code ts args -> ts = [] \/ begins TComma ts \/ exists t s r, ts = (t, s) :: r /\ (is_operand t = true \/ t = TOpenParen \/ t = TOperator))).
  { apply grammar_mut; intros; auto;
      try (match goal with H : exists t s r, _ |- _ => destruct H as [t' [s' [r' [-> Q]]]]; cbn [app]; solve [do 3 eexists; split; [reflexivity|exact Q]] end).
    - exists t, s, []. auto.
    - unfold open_paren. do 3 eexists. split; [reflexivity|auto].
    - do 3 eexists. split; [reflexivity|auto].
    - do 3 eexists. split; [reflexivity|auto].
    - right. left. do 2 eexists. reflexivity.
    - right. right. destruct H as [t' [s' [r' [-> Q]]]]. cbn [app]. do 3 eexists. split; [reflexivity|exact Q]. }
  apply H.
Qed.

Inductive power : nat -> option nat -> Prop :=
| pw_start : power 0 (Some 1)
| pw_tier k : 1 <= k <= 5 -> power (tier k) (Some k)
| pw_sign : power 170 None.
Definition reads (c : option nat) (ts : list tok) (n : node) : Prop := match c with Some k => infixed o code k ts n | None => signed o code ts n end.
Definition stage (c : option nat) (pre : list tok) (l : node) (ts : list tok) : Prop :=
  signed o code pre l \/ (exists k, c = Some k /\ percented o code pre l)
  \/ (exists k p, c = Some k /\ k <= p /\ 1 <= p <= 5 /\ infixed o code p pre l /\ halts (tier p) ts).
Lemma stage_reads c pre l ts : stage c pre l ts -> reads c pre l.
Proof.
  intros [H|[[k [-> H]]|[k [p [-> [K [_ [H _]]]]]]]]; [destruct c as [k|]; [apply g_percented; apply g_signed; exact H|exact H]|apply g_percented; exact H|apply (infixed_le p); assumption].
Qed.
Lemma halts_zero ts : halts 0 ts -> stop_tok code (fst (peek ts)) = true.
Proof. intros [H|[s [r [_ [[p [_ H]]|[_ H]]]]]]; [exact H|lia|lia]. Qed.
Lemma halts_operator m s r : halts m ((TOperator, s) :: r) -> (exists p, binds_tier s p /\ S (tier p) < m) \/ (s = lit "%" /\ 160 < m).
Proof. intros [H|[s' [r' [Q H]]]]; [discriminate H|]. injection Q as <- _. exact H. Qed.
Lemma halts_open m s r : ~ halts m ((TOpenParen, s) :: r).
Proof. intros [H|[s' [r' [Q H]]]]; discriminate. Qed.
Lemma binds_tier_fun s p p' : binds_tier s p -> binds_tier s p' -> p = p'.
Proof. intros H H'. apply binds_tier_class in H as [H _]. apply binds_tier_class in H' as [H' _]. rewrite H in H'. injection H' as H'. lia. Qed.

Lemma grammar_sound : forall f,
  (forall m c ts e r, power m c -> Forall lexer_tok ts -> expr_bp f o code m ts = Ok (e, r) -> exists used, ts = used ++ r /\ reads c used e /\ halts m r)
  /\ (forall m c pre l ts e r, power m c -> Forall lexer_tok ts -> stage c pre l ts -> bp_loop f o code m l ts = Ok (e, r) -> exists used, ts = used ++ r /\ reads c (pre ++ used) e /\ halts m r)
  /\ (forall acc ts args r, Forall lexer_tok ts -> call_args f o code acc ts = Ok (args, r) ->
        exists used b args', ts = used ++ (TCloseParen, b) :: r /\ args = rev acc ++ args' /\ arguments o code used args').
Proof.
  induction f as [|f [IHe [IHl IHa]]]; [repeat split; intros; discriminate|]. split; [|split].
  - intros m c ts e r Pw Ft H.
    assert (Loop : forall pre l ts' e r, signed o code pre l -> Forall lexer_tok ts' -> bp_loop f o code m l ts' = Ok (e, r) -> exists used, ts' = used ++ r /\ reads c (pre ++ used) e /\ halts m r).
    { intros pre l ts' e' r' Sg Ft' H'. apply (IHl m c pre l ts' e' r' Pw Ft'); [left; exact Sg|exact H']. }
    destruct ts as [|[t s] ts]; [discriminate H|]. apply Forall_cons_iff in Ft as [Fh Ft].
    assert (Operand : is_operand t = true -> match ast_try_from o (t, s) with inr e0 => bp_loop f o code m e0 ts | inl k => fail k ((t, s) :: ts) end = Ok (e, r) ->
      exists used, (t, s) :: ts = used ++ r /\ reads c used e /\ halts m r).
    { intros Op Q. destruct (ast_try_from o (t, s)) as [|e0] eqn:T; [discriminate Q|].
      destruct (Loop [(t, s)] e0 ts e r) as [used [-> [Rd Hl]]]; [apply g_applied; apply g_primary; apply g_operand; assumption|exact Ft|exact Q|].
      exists ((t, s) :: used). auto. }
    destruct t; try discriminate H; cbn [expr_bp] in H; try (apply Operand; [reflexivity|exact H]).
    + assert (s = lit "(") by exact Fh. subst s. destruct (expr_bp f o code 0 ts) as [[e1 r1]| | |] eqn:Q; cbn [bind] in H; try discriminate H.
      destruct (IHe 0 (Some 1) ts e1 r1 pw_start Ft Q) as [used [-> [Rd _]]]. destruct r1 as [|[[] b] r2]; try discriminate H.
      apply Forall_app in Ft as [_ Ft]. apply Forall_cons_iff in Ft as [_ Ft].
      destruct (Loop (open_paren :: used ++ [(TCloseParen, b)]) e1 r2 e r) as [used2 [-> [Rd2 Hl]]]; [apply g_applied; apply g_primary; apply g_paren; exact Rd|exact Ft|exact H|].
      exists ((open_paren :: used ++ [(TCloseParen, b)]) ++ used2). split; [cbn [app open_paren]; rewrite <- !app_assoc; reflexivity|auto].
    + destruct (prefix_power s) as [p|] eqn:Pp; [|discriminate H]. destruct (prefix_power_inv _ _ Pp) as [-> Op]. cbv zeta in H.
      destruct (expr_bp f o code 170 ts) as [[e1 r1]| | |] eqn:Q; cbn [bind] in H; try discriminate H.
      destruct (IHe 170 None ts e1 r1 pw_sign Ft Q) as [used [-> [Rd _]]]. apply Forall_app in Ft as [_ Ft].
      destruct (apply_sign (if str_eqb s (lit "+") then Positive else Negative) e1) as [e2|] eqn:Sg; [|discriminate H].
      destruct (Loop ((TOperator, s) :: used) e2 r1 e r) as [used2 [-> [Rd2 Hl]]]; [|exact Ft|exact H|].
      { destruct Op as [->| ->]; [eapply g_plus|eapply g_minus]; [exact Rd|exact Sg|exact Rd|exact Sg]. }
      exists (((TOperator, s) :: used) ++ used2). split; [cbn [app]; rewrite <- app_assoc; reflexivity|auto].
  - intros m c pre l ts e r Pw Ft St H.
    assert (Stop : Ok (l, ts) = Ok (e, r) :> outcome perr _ -> halts m ts -> exists used, ts = used ++ r /\ reads c (pre ++ used) e /\ halts m r).
    { intros Q Hl. injection Q as <- <-. exists []. rewrite app_nil_r. split; [reflexivity|]. split; [eapply stage_reads; exact St|exact Hl]. }
    cbn [bp_loop] in H. destruct ts as [|[t s] ts].
    { apply Stop; [exact H|left; reflexivity]. }
    cbn [peek] in H. assert (Ft0 := Ft). apply Forall_cons_iff in Ft as [Fh Ft].
    destruct t; cbn [tl] in H; try discriminate H; try (apply Stop; [exact H|left; reflexivity]).
    + destruct code eqn:Cd; [|discriminate H]. apply Stop; [exact H|left; cbn [peek fst stop_tok]; exact Cd].
    + assert (s = lit "(") by exact Fh. subst s. change (postfix_power (lit "(")) with (Some 210) in H. cbv iota beta in H.
      assert (M : m <= 170) by (destruct Pw; lia). destruct (Nat.ltb_spec 210 m); [lia|]. change (str_eqb (lit "(") (lit "(")) with true in H. cbv iota in H.
      destruct l as [| | | | | | |id| |]; try discriminate H.
      assert (Pr : primary o code pre (NRef id)).
      { destruct St as [St|[[k [_ St]]|[k [p [_ [_ [_ [_ Hl]]]]]]]]; [apply signed_ref; exact St|apply percented_ref; exact St|exfalso; eapply halts_open; exact Hl]. }
      destruct (call_args f o code [] ts) as [[args r1]| | |] eqn:Q; cbn [bind] in H; try discriminate H.
      destruct (IHa [] ts args r1 Ft Q) as [used [b [args' [-> [-> Ar]]]]]. cbn [rev app] in H. apply Forall_app in Ft as [_ Ft]. apply Forall_cons_iff in Ft as [_ Ft].
      destruct (IHl m c (pre ++ open_paren :: used ++ [(TCloseParen, b)]) (NCall args' id) r1 e r Pw Ft) as [used2 [-> [Rd Hl]]]; [left; apply g_applied; apply g_call; assumption|exact H|].
      exists ((open_paren :: used ++ [(TCloseParen, b)]) ++ used2). split; [cbn [app open_paren]; rewrite <- !app_assoc; reflexivity|]. rewrite app_assoc. auto.
    + assert (Fo : In s operators) by exact Fh. destruct (operator_tier s Fo) as [->|[p B]].
      * change (postfix_power (lit "%")) with (Some 160) in H. cbv iota beta in H. destruct (Nat.ltb_spec 160 m) as [M|M].
        { apply Stop; [exact H|]. right. do 2 eexists. split; [reflexivity|right; split; [reflexivity|exact M]]. }
        change (str_eqb (lit "%") (lit "(")) with false in H. change (str_eqb (lit "%") (lit "%")) with true in H. cbv iota in H.
        destruct (apply_percent l) as [l'|] eqn:Ap; [|discriminate H].
        assert (Pr : percented o code pre l).
        { destruct St as [St|[[k [_ St]]|[k [p [_ [_ [Pl [_ Hl]]]]]]]]; [apply g_signed; exact St|exact St|exfalso].
          apply halts_operator in Hl as [[q [Bq _]]|[_ Hl]]; [apply binds_tier_class in Bq as [_ [Bq _]]; discriminate Bq|lia]. }
        assert (Ck : exists k, c = Some k) by (destruct Pw; [eauto|eauto|lia]). destruct Ck as [k ->].
        destruct (IHl m (Some k) (pre ++ [(TOperator, lit "%")]) l' ts e r Pw Ft) as [used2 [-> [Rd Hl]]]; [right; left; exists k; split; [reflexivity|eapply g_percent; eassumption]|exact H|].
        exists ((TOperator, lit "%") :: used2). split; [reflexivity|]. rewrite <- app_assoc in Rd. auto.
      * destruct (binds_tier_class _ _ B) as [Cl [Pf Pb]]. rewrite Pf in H. unfold infix_power in H. rewrite Cl in H.
        destruct (Nat.ltb_spec ((10 + p) * 10 + 1) m) as [M|M].
        { apply Stop; [exact H|]. right. do 2 eexists. split; [reflexivity|left; exists p; split; [exact B|lia]]. }
        replace ((10 + p) * 10) with (tier p) in H by lia.
        destruct (expr_bp f o code (tier p) ts) as [[rhs r1]| | |] eqn:Q; cbn [bind] in H; try discriminate H.
        destruct (IHe (tier p) (Some p) ts rhs r1 (pw_tier p Pb) Ft Q) as [used [-> [Rd Hp]]]. apply Forall_app in Ft as [_ Ft].
        assert (Left : infixed o code (S p) pre l).
        { destruct St as [St|[[k [_ St]]|[k [p' [_ [_ [Pl [St Hl]]]]]]]]; [apply g_percented; apply g_signed; exact St|apply g_percented; exact St|].
          apply (infixed_le p'); [|exact St]. apply halts_operator in Hl as [[q [Bq Hl]]|[-> Hl]]; [rewrite (binds_tier_fun _ _ _ Bq B) in Hl; lia|lia]. }
        assert (Ck : exists k, c = Some k /\ k <= p) by (destruct Pw; [exists 1; split; [reflexivity|lia]|exists k; split; [reflexivity|lia]|lia]). destruct Ck as [k [-> Kp]].
        destruct (IHl m (Some k) (pre ++ (TOperator, s) :: used) (NInfix l s rhs) r1 e r Pw Ft) as [used2 [-> [Rd2 Hl]]].
        { right. right. exists k, p. repeat split; try lia; [|exact Hp]. eapply g_infix; [exact B|lia|exact Left|exact Rd]. }
        { exact H. }
        exists (((TOperator, s) :: used) ++ used2). split; [cbn [app]; rewrite <- app_assoc; reflexivity|]. rewrite app_assoc. auto.
    + destruct code eqn:Cd; [|discriminate H]. apply Stop; [exact H|left; cbn [peek fst stop_tok]; exact Cd].
  - intros acc ts args r Ft H. cbn [call_args] in H.
    assert (Arg : (do (e, r0) <- expr_bp f o code 0 ts; call_args f o code (e :: acc) r0) = Ok (args, r) ->
      exists used b args', ts = used ++ (TCloseParen, b) :: r /\ args = rev acc ++ args' /\ arguments o code used args').
    { intro Q. destruct (expr_bp f o code 0 ts) as [[e r1]| | |] eqn:Q1; cbn [bind] in Q; try discriminate Q.
      destruct (IHe 0 (Some 1) ts e r1 pw_start Ft Q1) as [used [-> [Rd Hl]]]. apply Forall_app in Ft as [_ Ft].
      destruct (IHa (e :: acc) r1 args r Ft Q) as [used2 [b [args' [-> [-> Ar]]]]]. exists (used ++ used2), b, (e :: args').
      split; [rewrite <- app_assoc; reflexivity|]. split; [cbn [rev]; rewrite <- app_assoc; reflexivity|]. apply g_argument; [exact Rd|exact Ar|].
      apply halts_zero in Hl. apply Forall_app in Ft as [Ft _]. destruct (arguments_head _ _ Ar) as [->|[Bg|[t [s [r' [-> Hd]]]]]]; [left; reflexivity|right; left; exact Bg|].
      right. right. cbn [app peek fst] in Hl. apply Forall_cons_iff in Ft as [Fh _].
      destruct Hd as [Hd|[->| ->]]; [|discriminate Hl|discriminate Hl]. destruct t; try discriminate Hd; try discriminate Hl. split; [exact Hl|]. do 2 eexists. reflexivity. }
    destruct ts as [|[t s] ts]; [apply Arg; exact H|]. cbn [peek fst tl] in H. destruct t; try (apply Arg; exact H).
    + injection H as <- <-. exists [], s, []. split; [reflexivity|]. split; [rewrite app_nil_r; reflexivity|constructor].
    + apply Forall_cons_iff in Ft as [_ Ft]. destruct (IHa acc ts args r Ft H) as [used [b [args' [-> [-> Ar]]]]].
      exists ((TComma, s) :: used), b, args'. split; [reflexivity|]. split; [reflexivity|constructor; exact Ar].
Qed.
End Exact.
