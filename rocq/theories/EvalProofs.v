(** * EvalProofs: evaluation against the meaning of formulas. *)
From Coq Require Import Permutation.
From Verif Require Import Base BaseProofs Csvp Ast AstProofs Eval EvalSpec.

(** ** Rewriting the nested recursions *)
Lemma replace_call x v args f : replace_variable x v (NCall args f) = NCall (map (replace_variable x v) args) f.
Proof. reflexivity. Qed.
Lemma refs_call args f : ref_names (NCall args f) = flat_map ref_names args.
Proof. reflexivity. Qed.
Lemma calls_call args f : call_names (NCall args f) = f :: flat_map call_names args.
Proof. reflexivity. Qed.
Lemma plain_call args f : plain (NCall args f) <-> Forall plain args.
Proof.
  cbn [plain]. induction args as [|a args IH]; [split; auto|]. rewrite Forall_cons_iff. rewrite <- IH. tauto.
Qed.
Lemma arity_call sc args f : arity_ok sc (NCall args f) <->
  (forall ps body name, assoc f (functions sc) = Some (NFn ps body name) -> length args = length ps)
  /\ Forall (arity_ok sc) args.
Proof.
  cbn [arity_ok].
  assert (H : (fix go l := match l with [] => True | x :: r => arity_ok sc x /\ go r end) args <-> Forall (arity_ok sc) args).
  { induction args as [|a args IH]; [split; auto|]. rewrite Forall_cons_iff. rewrite <- IH. tauto. }
  rewrite H. tauto.
Qed.
Lemma nesting_call sc pos rf bound ps j args f : nesting sc pos rf bound ps j (NCall args f) <->
  (assoc f (functions sc) <> None -> Forall (calls_below sc pos rf ps j (bound f)) args)
  /\ Forall (nesting sc pos rf bound ps j) args.
Proof.
  cbn [nesting].
  assert (H : (fix go l := match l with [] => True | x :: r => nesting sc pos rf bound ps j x /\ go r end) args
              <-> Forall (nesting sc pos rf bound ps j) args).
  { induction args as [|a args IH]; [split; auto|]. rewrite Forall_cons_iff. rewrite <- IH. tauto. }
  rewrite H. tauto.
Qed.

(** ** Substitution *)
Lemma subst_nil n : subst [] n = n.
Proof.
  induction n using node_induction; cbn [subst]; auto; try congruence.
  - f_equal. induction H as [|a l Ha Hl IH]; simpl; [reflexivity|]. rewrite Ha, IH. reflexivity.
  - destruct v; auto. rewrite (H n0); auto.
Qed.
Lemma subst_fresh s n : (forall x, In x (ref_names n) -> assoc x s = None) -> subst s n = n.
Proof.
  induction n using node_induction; cbn [subst]; intro Hx; auto.
  - f_equal. apply IHn. exact Hx.
  - f_equal. rewrite refs_call in Hx. induction H as [|x l Ha Hl IH]; simpl; [reflexivity|].
    simpl in Hx. rewrite Ha, IH; auto; intros y Hy; apply Hx; apply in_or_app; auto.
  - cbn [ref_names] in Hx. rewrite IHn1, IHn2; auto; intros y Hy; apply Hx; apply in_or_app; auto.
  - rewrite Hx; [reflexivity|left; reflexivity].
  - destruct v; auto. rewrite (H n0); auto.
Qed.
Lemma subst_replace p a s n : (forall x, In x (ref_names a) -> assoc x s = None) ->
  subst s (replace_variable p a n) = subst ((p, a) :: s) n.
Proof.
  intro Ha. induction n using node_induction; try reflexivity.
  - cbn [replace_variable subst]. rewrite IHn. reflexivity.
  - rewrite replace_call. cbn [subst]. f_equal. rewrite map_map.
    induction H as [|x l Hx Hl IH]; simpl; [reflexivity|]. rewrite Hx, IH. reflexivity.
  - cbn [replace_variable subst]. rewrite IHn1, IHn2. reflexivity.
  - cbn [replace_variable]. cbn [subst assoc]. rewrite str_eqb_sym. destruct (str_eqb r p) eqn:E.
    + apply subst_fresh. exact Ha.
    + reflexivity.
  - cbn [replace_variable]. destruct v; try reflexivity. cbn [subst]. rewrite (H n0); auto.
Qed.
Lemma combine_assoc_None {A} x (ps : list str) (l : list A) : ~ In x ps -> assoc x (combine ps l) = None.
Proof.
  revert l. induction ps as [|p ps IH]; intros l H; [reflexivity|]. destruct l as [|a l]; [reflexivity|].
  simpl. destruct (str_eqb_spec x p) as [->|]; [exfalso; apply H; left; reflexivity|].
  apply IH. intro. apply H. right. assumption.
Qed.
Lemma replace_params_subst : forall ps args body, length args = length ps ->
  (forall p a, In p (tl ps) -> In a args -> ~ In p (ref_names a)) ->
  replace_params ps args body = subst (combine ps args) body.
Proof.
  induction ps as [|p ps IH]; intros args body Hl Hc; destruct args as [|a args]; try discriminate.
  - symmetry. apply subst_nil.
  - cbn [replace_params combine]. rewrite IH.
    + apply subst_replace. intros x Hx. apply combine_assoc_None. intro Hp.
      apply (Hc x a); [exact Hp|left; reflexivity|exact Hx].
    + simpl in Hl. lia.
    + intros q b Hq Hb. apply Hc; [destruct ps; [contradiction|right; exact Hq]|right; exact Hb].
Qed.

(** ** Names after substitution *)
Lemma refs_subst s n x : In x (ref_names (subst s n)) ->
  (In x (ref_names n) /\ assoc x s = None) \/ (exists p a, In (p, a) s /\ In p (ref_names n) /\ In x (ref_names a)).
Proof.
  induction n using node_induction; cbn [subst]; intro Hx; try contradiction.
  - apply IHn. exact Hx.
  - rewrite refs_call in *. apply in_flat_map in Hx as [y [Hy Hx]]. apply in_map_iff in Hy as [z [<- Hz]].
    rewrite Forall_forall in H. destruct (H z Hz Hx) as [[H1 H2]|[p [b [H1 [H2 H3]]]]].
    + left. split; [|exact H2]. apply in_flat_map. eauto.
    + right. exists p, b. split; [exact H1|]. split; [|exact H3]. apply in_flat_map. eauto.
  - cbn [ref_names] in *. apply in_app_or in Hx as [Hx|Hx].
    + destruct (IHn1 Hx) as [[H1 H2]|[p [b [H1 [H2 H3]]]]];
        [left; split; [apply in_or_app|]; auto|right; exists p, b; repeat split; auto; apply in_or_app; auto].
    + destruct (IHn2 Hx) as [[H1 H2]|[p [b [H1 [H2 H3]]]]];
        [left; split; [apply in_or_app|]; auto|right; exists p, b; repeat split; auto; apply in_or_app; auto].
  - destruct (assoc r s) eqn:E.
    + right. exists r, n. split; [apply assoc_In; exact E|]. split; [left; reflexivity|exact Hx].
    + destruct Hx as [<-|[]]. left. split; [left; reflexivity|exact E].
  - destruct v as [a0|a0|c0 f0|r0|r0 f0]; try (destruct Hx; fail). exact (H a0 eq_refl Hx).
Qed.
Lemma calls_subst s n f : In f (call_names (subst s n)) ->
  In f (call_names n) \/ (exists p a, In (p, a) s /\ In p (ref_names n) /\ In f (call_names a)).
Proof.
  induction n using node_induction; cbn [subst]; intro Hx; try contradiction.
  - apply IHn. exact Hx.
  - rewrite calls_call, refs_call in *. destruct Hx as [<-|Hx]; [left; left; reflexivity|].
    apply in_flat_map in Hx as [y [Hy Hx]]. apply in_map_iff in Hy as [z [<- Hz]].
    rewrite Forall_forall in H. destruct (H z Hz Hx) as [H1|[p [b [H1 [H2 H3]]]]].
    + left. right. apply in_flat_map. eauto.
    + right. exists p, b. split; [exact H1|]. split; [|exact H3]. apply in_flat_map. eauto.
  - cbn [ref_names call_names] in *. apply in_app_or in Hx as [Hx|Hx].
    + destruct (IHn1 Hx) as [H1|[p [b [H1 [H2 H3]]]]];
        [left; apply in_or_app; auto|right; exists p, b; repeat split; auto; apply in_or_app; auto].
    + destruct (IHn2 Hx) as [H1|[p [b [H1 [H2 H3]]]]];
        [left; apply in_or_app; auto|right; exists p, b; repeat split; auto; apply in_or_app; auto].
  - destruct (assoc r s) eqn:E; [|contradiction].
    right. exists r, n. split; [apply assoc_In; exact E|]. split; [left; reflexivity|exact Hx].
  - destruct v as [a0|a0|c0 f0|r0|r0 f0]; try (destruct Hx; fail). exact (H a0 eq_refl Hx).
Qed.
Lemma replace_is_subst p a n : replace_variable p a n = subst [(p, a)] n.
Proof.
  induction n using node_induction; try reflexivity.
  - cbn [replace_variable subst]. rewrite IHn. reflexivity.
  - rewrite replace_call. cbn [subst]. f_equal.
    induction H as [|x l Hx Hl IH]; simpl; [reflexivity|]. rewrite Hx, IH. reflexivity.
  - cbn [replace_variable subst]. rewrite IHn1, IHn2. reflexivity.
  - cbn [replace_variable subst assoc]. rewrite str_eqb_sym. destruct (str_eqb r p); reflexivity.
  - destruct v; try reflexivity. cbn [replace_variable subst]. rewrite (H n0); auto.
Qed.
Lemma plain_subst s n : plain n -> (forall p a, In (p, a) s -> plain a) -> plain (subst s n).
Proof.
  induction n using node_induction; cbn [subst]; intros Hp Hs; auto; try contradiction.
  - apply plain_call in Hp. apply plain_call. apply Forall_map.
    rewrite Forall_forall in *. intros x Hx. apply H; auto.
  - destruct Hp. split; auto.
  - destruct (assoc r s) eqn:E; [|exact I]. eapply Hs. apply assoc_In. exact E.
Qed.
Lemma combine_In {A B} (p : A) (a : B) ps args : In (p, a) (combine ps args) -> In p ps /\ In a args.
Proof. intro H. split; [eapply in_combine_l|eapply in_combine_r]; eauto. Qed.

(** ** Induction for [expands] *)
Section ExpandsInd.
  Variables (sc : scope) (pos : option address) (P : node -> node -> Prop).
  Hypothesis Hleaf : forall n, leaf n = true -> P n n.
  Hypothesis Hvar : forall x v m, variable_node sc pos x = Some (Ok v) -> expands sc pos v m -> P v m -> P (NRef x) m.
  Hypothesis Hname : forall x, assoc x (variables sc) = None -> P (NRef x) (NRef x).
  Hypothesis Hinfix : forall l l' op r r', expands sc pos l l' -> P l l' -> expands sc pos r r' -> P r r' ->
    P (NInfix l op r) (NInfix l' op r').
  Hypothesis Hcall : forall f args ps body name m,
    assoc f (functions sc) = Some (NFn ps body name) -> length args = length ps ->
    expands sc pos (subst (combine ps args) body) m -> P (subst (combine ps args) body) m -> P (NCall args f) m.
  Hypothesis Hother : forall f args ms, assoc f (functions sc) = None ->
    Forall2 (expands sc pos) args ms -> Forall2 P args ms -> P (NCall args f) (NCall ms f).
  Fixpoint expands_induction n m (D : expands sc pos n m) : P n m :=
    match D with
    | x_leaf _ _ n H => Hleaf n H
    | x_variable _ _ x v m H D1 => Hvar x v m H D1 (expands_induction v m D1)
    | x_name _ _ x H => Hname x H
    | x_infix _ _ l l' op r r' D1 D2 =>
        Hinfix l l' op r r' D1 (expands_induction l l' D1) D2 (expands_induction r r' D2)
    | x_call _ _ f args ps body name m H1 H2 D1 => Hcall f args ps body name m H1 H2 D1 (expands_induction _ _ D1)
    | x_other_call _ _ f args ms H F =>
        Hother f args ms H F
          ((fix go l1 l2 (G : Forall2 (expands sc pos) l1 l2) : Forall2 P l1 l2 :=
             match G with
             | Forall2_nil _ => Forall2_nil P
             | Forall2_cons x y Hxy G' => Forall2_cons x y (expands_induction x y Hxy) (go _ _ G')
             end) args ms F)
    end.
End ExpandsInd.

Lemma variable_node_assoc sc pos x v : variable_node sc pos x = Some v -> assoc x (variables sc) <> None.
Proof. unfold variable_node. destruct (assoc x (variables sc)); [discriminate|discriminate]. Qed.

Theorem expands_unique sc pos n m : expands sc pos n m -> forall m', expands sc pos n m' -> m = m'.
Proof.
  intro D. induction D using expands_induction; intros m' D'.
  - inversion D'; subst; auto; discriminate.
  - inversion D'; subst; try discriminate.
    + rewrite H in H1. inversion H1; subst. auto.
    + apply variable_node_assoc in H. congruence.
  - inversion D'; subst; try discriminate; auto. apply variable_node_assoc in H1. congruence.
  - inversion D'; subst; try discriminate. f_equal; auto.
  - inversion D'; subst; try discriminate.
    + rewrite H in H3. inversion H3; subst. auto.
    + congruence.
  - inversion D'; subst; try discriminate.
    + congruence.
    + f_equal. match goal with F : Forall2 (expands sc pos) args ?l |- _ = ?l => revert l F D' end.
      clear H0. induction H1 as [|a b l l' Hab Hl IH]; intros ms0 F D'; inversion F; subst; [reflexivity|].
      f_equal; auto. apply IH; auto. constructor; auto.
Qed.

Lemma Forall2_len {A B} (R : A -> B -> Prop) l l' : Forall2 R l l' -> length l = length l'.
Proof. induction 1; simpl; congruence. Qed.

(** ** Partial unfoldings *)
Section Unfolding.
  Variables (sc : scope) (pos : option address).
  Inductive unf : node -> node -> Prop :=
  | u_refl n : unf n n
  | u_var x v : variable_node sc pos x = Some (Ok v) -> unf (NRef x) v
  | u_infix l l' op r r' : unf l l' -> unf r r' -> unf (NInfix l op r) (NInfix l' op r')
  | u_args f args args' : Forall2 unf args args' -> unf (NCall args f) (NCall args' f)
  | u_call f args args' ps body name :
      assoc f (functions sc) = Some (NFn ps body name) -> length args = length ps ->
      Forall2 unf args args' -> unf (NCall args f) (subst (combine ps args') body).

  Section UnfInd.
    Variable P : node -> node -> Prop.
    Hypothesis H1 : forall n, P n n.
    Hypothesis H2 : forall x v, variable_node sc pos x = Some (Ok v) -> P (NRef x) v.
    Hypothesis H3 : forall l l' op r r', unf l l' -> P l l' -> unf r r' -> P r r' -> P (NInfix l op r) (NInfix l' op r').
    Hypothesis H4 : forall f args args', Forall2 unf args args' -> Forall2 P args args' -> P (NCall args f) (NCall args' f).
    Hypothesis H5 : forall f args args' ps body name,
      assoc f (functions sc) = Some (NFn ps body name) -> length args = length ps ->
      Forall2 unf args args' -> Forall2 P args args' -> P (NCall args f) (subst (combine ps args') body).
    Fixpoint unf_induction n m (D : unf n m) : P n m :=
      let list_ind := fix go l1 l2 (G : Forall2 unf l1 l2) : Forall2 P l1 l2 :=
             match G with
             | Forall2_nil _ => Forall2_nil P
             | Forall2_cons x y Hxy G' => Forall2_cons x y (unf_induction x y Hxy) (go _ _ G')
             end in
      match D with
      | u_refl n => H1 n
      | u_var x v H => H2 x v H
      | u_infix l l' op r r' D1 D2 => H3 l l' op r r' D1 (unf_induction _ _ D1) D2 (unf_induction _ _ D2)
      | u_args f args args' F => H4 f args args' F (list_ind _ _ F)
      | u_call f args args' ps body name E L F => H5 f args args' ps body name E L F (list_ind _ _ F)
      end.
  End UnfInd.

  Lemma unf_subst ps args args' n : plain n -> Forall2 unf args args' ->
    unf (subst (combine ps args) n) (subst (combine ps args') n).
  Proof.
    intros Hp F. induction n using node_induction; try (constructor; fail); try contradiction; cbn [subst].
    - apply plain_call in Hp. apply u_args. rewrite Forall_forall in *.
      clear F. induction a as [|x a IH]; simpl; constructor.
      + apply H; [left; reflexivity|]. apply Hp. left. reflexivity.
      + apply IH; intros; [apply H|apply Hp]; try (right; assumption); assumption.
    - destruct Hp. constructor; auto.
    - clear Hp. revert ps. induction F as [|a a' l l' Ha F IH]; intros ps; destruct ps as [|p ps]; simpl; try constructor.
      destruct (str_eqb r p); [exact Ha|apply IH].
  Qed.

  (** congruence at the root *)
  Inductive cong : node -> node -> Prop :=
  | c_refl n : cong n n
  | c_infix l l' op r r' : unf l l' -> unf r r' -> cong (NInfix l op r) (NInfix l' op r')
  | c_args f args args' : Forall2 unf args args' -> cong (NCall args f) (NCall args' f).

  Lemma unfold_root n' m : plain_scope sc pos -> (forall n, cong n n' -> expands sc pos n m) ->
    forall n, unf n n' -> expands sc pos n m.
  Proof.
    intros Hsc Hc n Hu. revert Hc. induction Hu using unf_induction; intro Hc.
    - apply Hc. constructor.
    - eapply x_variable; eauto. apply Hc. constructor.
    - apply Hc. constructor; assumption.
    - apply Hc. constructor; assumption.
    - eapply x_call; eauto. destruct (proj2 Hsc _ _ H) as [ps' [body' [name' [E Hp]]]]. inversion E; subst ps' body' name'.
      destruct body; try (apply Hc; constructor; fail); try contradiction.
      + apply Hc. cbn [subst]. apply c_args.
        assert (G : unf (subst (combine ps args) (NCall args0 name0)) (subst (combine ps args') (NCall args0 name0)))
          by (apply unf_subst; assumption).
        apply plain_call in Hp. clear -Hp H1.
        induction args0 as [|x l IH]; simpl; constructor; apply Forall_cons_iff in Hp as [Hx Hp]; [|auto].
        apply unf_subst; assumption.
      + apply Hc. cbn [subst]. destruct Hp. apply c_infix; apply unf_subst; assumption.
      + (* a reference: a parameter or not *)
        cbn [subst] in *. clear H H0 E Hp. revert ps Hc.
        induction H1 as [|a a' l l' Ha F IH]; intros ps Hc.
        * destruct ps; simpl in *; apply Hc; constructor.
        * inversion H2; subst. destruct ps as [|p ps]; simpl in *; [apply Hc; constructor|].
          destruct (str_eqb r p); [apply H3; exact Hc|]. apply IH; assumption.
  Qed.

  Lemma unf_back n' m : plain_scope sc pos -> expands sc pos n' m ->
    forall n, unf n n' -> expands sc pos n m.
  Proof.
    intros Hsc D. induction D using expands_induction; apply unfold_root; auto; intros n0 Hc.
    - inversion Hc; subst; try discriminate. apply x_leaf. assumption.
    - inversion Hc; subst. eapply x_variable; eauto.
    - inversion Hc; subst. apply x_name. assumption.
    - inversion Hc; subst; [apply x_infix; auto|]. apply x_infix; auto.
    - inversion Hc; subst; [eapply x_call; eauto|].
      assert (L : length args0 = length args) by (eapply Forall2_len; eauto).
      eapply x_call; [exact H|congruence|]. apply IHD.
      destruct (proj2 Hsc _ _ H) as [ps' [body' [name' [E Hp]]]]. inversion E; subst. apply unf_subst; assumption.
    - inversion Hc; subst; [apply x_other_call; auto|].
      apply x_other_call; [assumption|]. clear Hc H0. revert args0 H4.
      induction H1 as [|a b l l' Hab Hl IH]; intros args0 F; inversion F; subst; constructor; auto.
  Qed.

  Lemma unf_forward n m : plain_scope sc pos -> expands sc pos n m ->
    forall n', unf n n' -> expands sc pos n' m.
  Proof.
    intros Hsc D. induction D using expands_induction; intros n' Hu.
    - inversion Hu; subst; try discriminate. apply x_leaf. assumption.
    - inversion Hu; subst; [eapply x_variable; eauto|]. congruence.
    - inversion Hu; subst; [apply x_name; assumption|]. apply variable_node_assoc in H1. congruence.
    - inversion Hu; subst; apply x_infix; auto.
    - destruct (proj2 Hsc _ _ H) as [ps' [body' [name' [E Hp]]]]. inversion E; subst ps' body' name'.
      inversion Hu; subst.
      + eapply x_call; eauto.
      + assert (L : length args = length args') by (eapply Forall2_len; eauto).
        eapply x_call; [exact H|congruence|]. apply IHD. apply unf_subst; assumption.
      + rewrite H in H3. inversion H3; subst. apply IHD. apply unf_subst; assumption.
    - inversion Hu; subst.
      + apply x_other_call; auto.
      + apply x_other_call; [assumption|].
        match goal with F : Forall2 unf args _ |- _ => clear Hu H0; revert args' F end.
        induction H1 as [|a b l l' Hab Hl IH]; intros args' F; inversion F; subst; constructor; auto.
      + congruence.
  Qed.
End Unfolding.
