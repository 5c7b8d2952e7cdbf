(** * InlineProofs: writing out preserves the meaning. *)
From Verif Require Import Base BaseProofs Csvp Ast AstProofs Eval EvalSpec EvalProofs Options Sheet SheetSpec SheetProofs ParsedPlain ModuleProofs ProgramSpec ProgramProofs PropProgram InlineSpec.

Section WoInd.
  Variables (p : program) (ps : list str) (P : node -> node -> Prop).
  Hypothesis H1 : forall n, P n n.
  Hypothesis H2 : forall l l' op r r', P l l' -> P r r' -> P (NInfix l op r) (NInfix l' op r').
  Hypothesis H3 : forall f es es', Forall2 P es es' -> P (NCall es f) (NCall es' f).
  Hypothesis H4 : forall x nm e n', assoc x (variables (pr_scope p)) = Some (NVar nm (VAst e)) -> ~ In x ps -> (forall y, In y ps -> ~ In y (ref_names e)) -> P e n' -> P (NRef x) n'.
  Hypothesis H5 : forall f es qs body nm n', assoc f (functions (pr_scope p)) = Some (NFn qs body nm) -> length es = length qs ->
    (forall y, In y (ref_names body) -> ~ In y qs -> ~ In y ps) -> P (subst (combine qs es) body) n' -> P (NCall es f) n'.
  Fixpoint wo_induction n n' (D : written_out p ps n n') : P n n' :=
    let list_ind := fix go es es' (F : Forall2 (written_out p ps) es es') : Forall2 P es es' :=
      match F with Forall2_nil _ => Forall2_nil _ | Forall2_cons a b Hab F => Forall2_cons a b (wo_induction a b Hab) (go _ _ F) end in
    match D with
    | wo_same _ _ n => H1 n
    | wo_infix _ _ l l' op r r' A B => H2 l l' op r r' (wo_induction _ _ A) (wo_induction _ _ B)
    | wo_args _ _ f es es' F => H3 f es es' (list_ind _ _ F)
    | wo_name _ _ x nm e n' A B C D => H4 x nm e n' A B C (wo_induction _ _ D)
    | wo_call _ _ f es qs body nm n' A B C D => H5 f es qs body nm n' A B C (wo_induction _ _ D)
    end.
End WoInd.

Lemma wo_subst_args p ps args args' n : plain n -> Forall2 (written_out p []) args args' -> written_out p [] (subst (combine ps args) n) (subst (combine ps args') n).
Proof.
  intros Hp F. induction n using node_induction; try (constructor; fail); try contradiction; cbn [subst].
  - apply plain_call in Hp. apply wo_args. rewrite Forall_forall in *.
    clear F. induction a as [|x a IH]; simpl; constructor.
    + apply H; [left; reflexivity|]. apply Hp. left. reflexivity.
    + apply IH; intros; [apply H|apply Hp]; try (right; assumption); assumption.
  - destruct Hp. constructor; auto.
  - clear Hp. revert ps. induction F as [|a a' l l' Ha F IH]; intros ps; destruct ps as [|q ps]; simpl; try constructor.
    destruct (str_eqb r q); [exact Ha|apply IH].
Qed.
Lemma wo_subst p ps args args' n n' : plain_defs (pr_scope p) -> plain n -> length args = length ps -> Forall2 (written_out p []) args args' ->
  written_out p ps n n' -> written_out p [] (subst (combine ps args) n) (subst (combine ps args') n').
Proof.
  intros [Df Dv] Hp L F D. revert Hp. induction D using wo_induction; intro Hp.
  - apply wo_subst_args; assumption.
  - destruct Hp. cbn [subst]. constructor; auto.
  - cbn [subst]. apply wo_args. apply plain_call in Hp. induction H as [|a b l l' Hab _ IH]; cbn [map]; constructor; [apply Hab; inversion Hp; assumption|apply IH; inversion Hp; assumption].
  - cbn [subst]. rewrite combine_assoc_None by assumption. eapply wo_name; [exact H|intros []|intros y []|].
    assert (Pe : plain e) by (destruct (Dv _ _ H) as [nm' [v [J Pv]]]; injection J as <- <-; exact Pv). specialize (IHD Pe). rewrite (subst_fresh (combine ps args) e) in IHD; [exact IHD|].
    intros y Hy. apply combine_assoc_None. intro Iy. exact (H1 y Iy Hy).
  - cbn [subst]. destruct (Df _ _ H) as [qs' [b' [nm' [J Pb]]]]. injection J as <- <- <-. eapply wo_call; [exact H|rewrite map_length; assumption|intros y _ _ []|].
    rewrite <- subst_compose; [|assumption| |assumption].
    + apply IHD. apply plain_subst; [assumption|]. intros q a I. apply plain_call in Hp. rewrite Forall_forall in Hp. apply Hp. apply in_combine_r in I. exact I.
    + intros y Hy Ny. apply combine_assoc_None. apply H1; assumption.
Qed.

Lemma Forall2_nth_r {A B} (R : A -> B -> Prop) : forall l l', Forall2 R l l' -> forall i a, nth_error l i = Some a -> exists b, nth_error l' i = Some b /\ R a b.
Proof. induction 1 as [|x y l l' H _ IH]; intros [|i] a Hi; try discriminate Hi; cbn in *; [injection Hi as <-; eauto|apply IH; exact Hi]. Qed.
Lemma Forall2_nth_left {A B} (R : A -> B -> Prop) : forall l l', Forall2 R l l' -> forall i b, nth_error l' i = Some b -> exists a, nth_error l i = Some a /\ R a b.
Proof. induction 1 as [|x y l l' H _ IH]; intros [|i] a Hi; try discriminate Hi; cbn in *; [injection Hi as <-; eauto|apply IH; exact Hi]. Qed.

Section Inline.
  Variables (p p' : program) (args : list (str * node)).
  Hypothesis D : plain_defs (pr_scope p).
  Hypothesis In1 : inlined p p'.
  Let rows := sheet_rows (pr_sheet p).
  Let rows' := sheet_rows (pr_sheet p').
  Lemma in_rows : Forall2 (inlined_row p) rows rows'.
  Proof. exact (proj1 In1). Qed.
  Lemma in_copies left : map (copies left) rows' = map (copies left) rows.
  Proof. induction in_rows as [|r r' l l' [Hf _] _ IH]; [reflexivity|]. cbn [map]. rewrite IH. unfold copies. rewrite Hf. reflexivity. Qed.
  Lemma in_total left : total left rows' = total left rows.
  Proof. unfold total. rewrite in_copies. reflexivity. Qed.
  Lemma in_room : room rows' = room rows.
  Proof. unfold room. rewrite in_total. reflexivity. Qed.
  Lemma in_offset left i : offset left rows' i = offset left rows i.
  Proof. unfold offset, total. rewrite <- !firstn_map, in_copies. reflexivity. Qed.
  Lemma in_first i : first_row rows' i = first_row rows i.
  Proof. unfold first_row. rewrite in_room. apply in_offset. Qed.
  Lemma in_binds x t f : binds (pr_sheet p) x t f <-> binds (pr_sheet p') x t f.
  Proof.
    unfold binds. destruct t as [y|c y]; split.
    - intros [r [Hr [Hv Hf]]]. destruct (Forall2_nth_r _ _ _ in_rows _ _ Hr) as [r' [Hr' [If [Iv _]]]]. exists r'. split; [exact Hr'|]. rewrite Iv, If. auto.
    - intros [r' [Hr' [Hv Hf]]]. destruct (Forall2_nth_left _ _ _ in_rows _ _ Hr') as [r [Hr [If [Iv _]]]]. exists r. split; [exact Hr|]. rewrite <- Iv, <- If. auto.
    - intros [r [ce [Hr [Hc [Hv Hf]]]]]. destruct (Forall2_nth_r _ _ _ in_rows _ _ Hr) as [r' [Hr' [If [_ [_ Ic]]]]]. destruct (Forall2_nth_r _ _ _ Ic _ _ Hc) as [ce' [Hc' [_ [Icv _]]]].
      exists r', ce'. split; [exact Hr'|]. split; [exact Hc'|]. rewrite Icv, If. auto.
    - intros [r' [ce' [Hr' [Hc' [Hv Hf]]]]]. destruct (Forall2_nth_left _ _ _ in_rows _ _ Hr') as [r [Hr [If [_ [_ Ic]]]]]. destruct (Forall2_nth_left _ _ _ Ic _ _ Hc') as [ce [Hc [_ [Icv _]]]].
      exists r, ce. split; [exact Hr|]. split; [exact Hc|]. rewrite <- Icv, <- If. auto.
  Qed.
  Lemma in_last x t f : last_binding (pr_sheet p) x t f <-> last_binding (pr_sheet p') x t f.
  Proof.
    unfold last_binding. split; intros [A B]; (split; [apply in_binds; exact A|]); intros t' f' H; apply (B t' f'); apply in_binds; exact H.
  Qed.
  Lemma in_refers t here text : refers rows t here text <-> refers rows' t here text.
  Proof.
    unfold refers. split.
    - intros [r [Hr H]]. destruct (Forall2_nth_r _ _ _ in_rows _ _ Hr) as [r' [Hr' [If _]]]. exists r'. split; [exact Hr'|]. unfold row_after, copies in *. rewrite in_first, in_room, If. exact H.
    - intros [r' [Hr' H]]. destruct (Forall2_nth_left _ _ _ in_rows _ _ Hr') as [r [Hr [If _]]]. exists r. split; [exact Hr|]. unfold row_after, copies in *. rewrite in_first, in_room, If in H. exact H.
  Qed.
  Lemma in_value here x v : value_of p args here x v -> exists v', value_of p' args here x v' /\ written_out p [] v v'.
  Proof.
    intros [nm e A|t f text A L R|e A N B]; pose proof (proj1 (proj2 In1) x) as V; rewrite A in V.
    - destruct (assoc x (variables (pr_scope p'))) as [g|] eqn:G; [|contradiction]. destruct g as [| | | | | | | | |k [|e'| | |]]; try contradiction. exists e'. split; [eapply v_code; exact G|exact V].
    - destruct (assoc x (variables (pr_scope p'))) as [g|] eqn:G; [contradiction|]. exists (NRef text). split; [|constructor]. apply (v_sheet _ _ _ _ t f); [exact G|apply in_last; exact L|apply in_refers; exact R].
    - destruct (assoc x (variables (pr_scope p'))) as [g|] eqn:G; [contradiction|]. exists e. split; [|constructor]. apply v_arg; [exact G| |exact B]. intros t f H. apply in_binds in H. exact (N _ _ H).
  Qed.
  Lemma in_no_value here x : (forall v, ~ value_of p args here x v) -> forall v, ~ value_of p' args here x v.
  Proof.
    intros H v [nm e A|t f text A L R|e A N B]; pose proof (proj1 (proj2 In1) x) as V; rewrite A in V.
    - destruct (assoc x (variables (pr_scope p))) as [g|] eqn:G; [|contradiction]. destruct g as [| | | | | | | | |k [|e'| | |]]; try contradiction. apply (H e'). eapply v_code; exact G.
    - destruct (assoc x (variables (pr_scope p))) as [g|] eqn:G; [destruct g as [| | | | | | | | |k [|e'| | |]]; contradiction|]. apply (H (NRef text)). apply (v_sheet _ _ _ _ t f); [exact G|apply in_last; exact L|apply in_refers; exact R].
    - destruct (assoc x (variables (pr_scope p))) as [g|] eqn:G; [destruct g as [| | | | | | | | |k [|e'| | |]]; contradiction|]. apply (H e). apply v_arg; [exact G| |exact B]. intros t f K. apply in_binds in K. exact (N _ _ K).
  Qed.
  Theorem means_inlined here : forall n m, means p args here n m -> forall n', written_out p [] n n' -> means p' args here n' m.
  Proof.
    fix IH 3. intros n m M n' W. destruct M as [n L|x v m V M|x N|l l' op r r' M1 M2|f es ps body nm m A L M|f es ms A M].
    - inversion W; subst; try discriminate L. apply m_leaf. exact L.
    - inversion W as [| | |? ? e ? A _ _ We|]; subst.
      + destruct (in_value _ _ _ V) as [v' [V' Wv]]. eapply m_name; [exact V'|]. exact (IH _ _ M _ Wv).
      + assert (v = e) as -> by (eapply value_of_unique; [exact V|eapply v_code; exact A]). exact (IH _ _ M _ We).
    - inversion W as [| | |? ? e ? A _ _ We|]; subst; [apply m_unknown; apply in_no_value; exact N|]. exfalso. apply (N e). eapply v_code; exact A.
    - inversion W as [|? ? ? ? ? W1 W2| | |]; subst; apply m_infix.
      + exact (IH _ _ M1 _ (wo_same _ _ _)).
      + exact (IH _ _ M2 _ (wo_same _ _ _)).
      + exact (IH _ _ M1 _ W1).
      + exact (IH _ _ M2 _ W2).
    - assert (X : forall es', Forall2 (written_out p []) es es' -> means p' args here (NCall es' f) m).
      { intros es' F. pose proof (proj2 (proj2 In1) f) as Vf. rewrite A in Vf. destruct (assoc f (functions (pr_scope p'))) as [g|] eqn:G; [|contradiction]. destruct g; try contradiction. destruct Vf as [-> Wb].
        eapply m_call; [exact G|rewrite <- L; symmetry; eapply Forall2_len; exact F|]. apply (IH _ _ M). destruct D as [Df _]. destruct (Df _ _ A) as [qs' [b' [nm' [J Pb]]]]. injection J as <- <- <-. apply wo_subst; assumption. }
      inversion W as [| |? ? es' F| |? ? qs b2 nm2 ? A2 L2 _ We]; subst.
      + apply X. clear. induction es; constructor; [constructor|assumption].
      + apply X. exact F.
      + rewrite A in A2. injection A2 as <- <- <-. exact (IH _ _ M _ We).
    - assert (X : forall es', Forall2 (written_out p []) es es' -> means p' args here (NCall es' f) (NCall ms f)).
      { intros es' F. apply m_other_call.
        - pose proof (proj2 (proj2 In1) f) as Vf. rewrite A in Vf. destruct (assoc f (functions (pr_scope p'))); [contradiction|reflexivity].
        - clear A W. revert es' F. induction M as [|a b l l' Mab _ IHl]; intros es' F; inversion F; subst; constructor; [apply (IH _ _ Mab); assumption|apply IHl; assumption]. }
      inversion W as [| |? ? es' F| |? ? qs b2 nm2 ? A2 L2 _ We]; subst.
      + apply X. clear. induction es; constructor; [constructor|assumption].
      + apply X. exact F.
      + congruence.
  Qed.
End Inline.
