(** * ModuleProofs: evaluating definitions in the module they belong to keeps their meaning. *)
From Coq Require Import Relations.
From Verif Require Import Base BaseProofs Csvp Ast AstProofs Eval EvalSpec EvalProofs EvalRounds ParsedPlain Options Sheet SheetProofs2 ModuleSpec.

Lemma bind_ok {E A B} (x : outcome E A) (f : A -> outcome E B) b : bind x f = Ok b -> exists a, x = Ok a /\ f a = Ok b.
Proof. destruct x; try discriminate. eauto. Qed.

(** ** Closure properties of unfolding *)
Section Closure.
  Variables (sc : scope) (pos : option address).
  Notation unf := (unf sc pos).
  Notation steps := (clos_refl_trans node unf).
  Lemma steps_infix l l' op r r' : steps l l' -> steps r r' -> steps (NInfix l op r) (NInfix l' op r').
  Proof.
    intros H1 H2. apply rt_trans with (NInfix l' op r).
    - clear H2. induction H1; [apply rt_step; apply u_infix; [assumption|apply u_refl]|apply rt_refl|eapply rt_trans; eauto].
    - clear H1. induction H2; [apply rt_step; apply u_infix; [apply u_refl|assumption]|apply rt_refl|eapply rt_trans; eauto].
  Qed.
  Lemma steps_arg f a b x x' : steps x x' -> steps (NCall (a ++ x :: b) f) (NCall (a ++ x' :: b) f).
  Proof.
    induction 1; [apply rt_step; apply u_args; apply Forall2_app; [apply Forall2_same; apply u_refl|constructor; [assumption|apply Forall2_same; apply u_refl]]|apply rt_refl|eapply rt_trans; eauto].
  Qed.
  Lemma steps_args f : forall args args', Forall2 steps args args' -> forall pre, steps (NCall (pre ++ args) f) (NCall (pre ++ args') f).
  Proof.
    induction 1 as [|a a' l l' Ha Hl IH]; intro pre; [apply rt_refl|].
    eapply rt_trans; [apply steps_arg; exact Ha|]. specialize (IH (pre ++ [a'])). rewrite <- !app_assoc in IH. exact IH.
  Qed.
  (** names satisfying [Q] stay within [Q] *)
  Lemma unf_names (Q : str -> Prop) :
    (forall x v y, variable_node sc pos x = Some (Ok v) -> Q x -> In y (ref_names v) -> Q y) ->
    (forall f ps body name y, assoc f (functions sc) = Some (NFn ps body name) -> In y (ref_names body) -> ~ In y ps -> Q y) ->
    forall n n', unf n n' -> (forall x, In x (ref_names n) -> Q x) -> forall x, In x (ref_names n') -> Q x.
  Proof.
    intros H1 H2 n n' U. induction U using unf_induction; intros Hn y Hy.
    - auto.
    - eapply H1; eauto. apply Hn. left. reflexivity.
    - cbn [ref_names] in *. apply in_app_or in Hy as [Hy|Hy]; [apply IHU1|apply IHU2]; auto; intros z Hz; apply Hn; apply in_or_app; auto.
    - rewrite refs_call in *. apply in_flat_map in Hy as [z [Hz Hy]]. clear H. revert Hn Hz. induction H0 as [|a a' l l' Ha Hl IH]; intros Hn Hz; [destruct Hz|].
      cbn [flat_map] in Hn. destruct Hz as [->|Hz]; [apply Ha; auto; intros; apply Hn; apply in_or_app; auto|]. apply IH; auto. intros; apply Hn; apply in_or_app; auto.
    - apply refs_subst in Hy as [[Hy Ha]|[p [a [Hpa [_ Hy]]]]].
      + eapply H2; eauto. intro Hp. destruct (combine_assoc_Some y ps args' Hp) as [b Hb]; [|congruence]. rewrite <- H0. symmetry. eapply Forall2_len. eassumption.
      + apply combine_In in Hpa as [_ Ha]. rewrite refs_call in Hn. clear H H0 H3. revert Hn Ha. induction H4 as [|b b' l l' Hb Hl IH]; intros Hn Ha; [destruct Ha|].
        cbn [flat_map] in Hn. destruct Ha as [->|Ha]; [apply Hb; auto; intros; apply Hn; apply in_or_app; auto|]. apply IH; auto. intros; apply Hn; apply in_or_app; auto.
  Qed.
End Closure.

Lemma subst_compose s ps args n : length args = length ps -> (forall y, In y (ref_names n) -> ~ In y ps -> assoc y s = None) ->
  plain n -> subst s (subst (combine ps args) n) = subst (combine ps (map (subst s) args)) n.
Proof.
  intros L. induction n using node_induction; intros H' Hp; try reflexivity; try contradiction.
  - cbn [subst]. f_equal. rewrite map_map. rewrite refs_call in H'. apply plain_call in Hp. induction H as [|x l Hx Hl IH]; [reflexivity|]. cbn [map flat_map] in *.
    apply Forall_cons_iff in Hp as [Hp1 Hp2]. rewrite Hx, IH; auto; intros y Hy; apply H'; apply in_or_app; auto.
  - cbn [subst ref_names] in *. destruct Hp. rewrite IHn1, IHn2; auto; intros y Hy; apply H'; apply in_or_app; auto.
  - cbn [subst]. clear Hp. specialize (H' r (or_introl eq_refl)). revert args L H'. induction ps as [|p ps IH]; intros args L H'; destruct args as [|a args]; try discriminate L; cbn [combine assoc map].
    + cbn [subst]. rewrite H' by auto. reflexivity.
    + destruct (str_eqb_spec r p) as [->|N]; [reflexivity|]. apply IH; [injection L; auto|]. intro N2. apply H'. intros [->|X]; contradiction.
Qed.

Section Subst.
  Variable sc : scope.
  Hypothesis Hd : plain_defs sc.
  Hypothesis Ha : parameters_apart sc.
  Notation unf := (unf sc None).
  Notation steps := (clos_refl_trans node unf).
  (** replacing parameters commutes with unfolding *)
  Lemma unf_subst_params s n n' : (forall p a, In (p, a) s -> parameter sc p) -> unf n n' -> unf (subst s n) (subst s n').
  Proof.
    intros Hs U.
    assert (Np : forall y, ~ parameter sc y -> assoc y s = None).
    { intros y Hy. destruct (assoc y s) eqn:E; [|reflexivity]. apply assoc_In in E. destruct Hy. eapply Hs. exact E. }
    induction U using unf_induction.
    - apply u_refl.
    - cbn [subst]. rewrite (subst_fresh s v). 2: { intros y Hy. apply Np. eapply (proj1 (proj2 Ha)); eauto. }
      rewrite Np; [apply u_var; assumption|]. intro P. apply (proj1 Ha) in P. apply variable_node_assoc in H. contradiction.
    - cbn [subst]. apply u_infix; assumption.
    - cbn [subst]. apply u_args. clear H. induction H0; constructor; auto.
    - cbn [subst]. pose proof (Forall2_len _ _ _ H1) as L. rewrite subst_compose.
      + eapply u_call; [exact H|rewrite map_length; exact H0|]. clear -H2. induction H2; constructor; auto.
      + congruence.
      + intros y Hy Hn. apply Np. eapply (proj2 (proj2 Ha)); eauto.
      + destruct (proj1 Hd _ _ H) as [ps' [body' [name' [E Hb]]]]. injection E as <- <- <-. exact Hb.
  Qed.
  Lemma steps_subst_params s n n' : (forall p a, In (p, a) s -> parameter sc p) -> steps n n' -> steps (subst s n) (subst s n').
  Proof. intros Hs. induction 1; [apply rt_step; apply unf_subst_params; assumption|apply rt_refl|eapply rt_trans; eauto]. Qed.
End Subst.

(** ** Scopes whose definitions are partly evaluated *)
Definition refines (sc0 sc : scope) : Prop :=
  NoDup (map fst (variables sc))
  /\ (forall x g, assoc x (variables sc) = Some g -> exists nm nm' v v',
        assoc x (variables sc0) = Some (NVar nm (VAst v)) /\ g = NVar nm' (VAst v') /\ clos_refl_trans node (unf sc0 None) v v')
  /\ (forall f g, assoc f (functions sc) = Some g -> exists ps body body' nm nm',
        assoc f (functions sc0) = Some (NFn ps body nm) /\ g = NFn ps body' nm' /\ clos_refl_trans node (unf sc0 None) body body').
Section Refines.
  Variable sc0 : scope.
  Hypothesis Hd : plain_defs sc0.
  Hypothesis Ha : parameters_apart sc0.
  Notation steps0 := (clos_refl_trans node (unf sc0 None)).
  Lemma sc0_plain pos : plain_scope sc0 pos.
  Proof. apply plain_defs_scope. exact Hd. Qed.
  Lemma later_is_parameter x : later_param sc0 x -> parameter sc0 x.
  Proof. intros [f [ps [b [nm [E H]]]]]. exists f, ps, b, nm. split; [exact E|]. destruct ps; [destruct H|right; exact H]. Qed.
  Lemma sc0_hygienic : hygienic sc0 None.
  Proof.
    split.
    - intros x v E y Hy _ L. apply later_is_parameter in L. eapply (proj1 (proj2 Ha)); eauto.
    - intros f ps b nm E y Hy Hn L. apply later_is_parameter in L. eapply (proj2 (proj2 Ha)); eauto.
  Qed.
  (** a term whose names are not parameters, except [P] *)
  Lemma steps0_names P n n' : steps0 n n' -> (forall x, In x (ref_names n) -> ~ parameter sc0 x \/ In x P) -> forall x, In x (ref_names n') -> ~ parameter sc0 x \/ In x P.
  Proof.
    induction 1; auto. apply (unf_names sc0 None (fun x => ~ parameter sc0 x \/ In x P)); auto.
    - intros y0 v z E _ Hz. left. eapply (proj1 (proj2 Ha)); eauto.
    - intros f ps b nm z E Hz Hn. left. eapply (proj2 (proj2 Ha)); eauto.
  Qed.
  Lemma var_value_names x v : variable_node sc0 None x = Some (Ok v) -> forall y, In y (ref_names v) -> ~ parameter sc0 y \/ In y [].
  Proof. intros E y Hy. left. eapply (proj1 (proj2 Ha)); eauto. Qed.
  Lemma body_names f ps b nm : assoc f (functions sc0) = Some (NFn ps b nm) -> forall y, In y (ref_names b) -> ~ parameter sc0 y \/ In y ps.
  Proof. intros E y Hy. destruct (in_dec (list_eq_dec N.eq_dec) y ps) as [I|N]; [right; exact I|left]. eapply (proj2 (proj2 Ha)); eauto. Qed.
  Lemma node_value x nm v : assoc x (variables sc0) = Some (NVar nm (VAst v)) -> forall pos, variable_node sc0 pos x = Some (Ok v).
  Proof. intros E pos. unfold variable_node. rewrite E. destruct pos; reflexivity. Qed.
  Lemma steps0_plain n n' : steps0 n n' -> plain n -> plain n'.
  Proof. induction 1; auto. intro Hp. eapply unf_plain; eauto. apply sc0_plain. Qed.

  Variable sc : scope.
  Hypothesis R : refines sc0 sc.
  Lemma refined_node pos x r : variable_node sc pos x = Some r -> exists v v', variable_node sc0 None x = Some (Ok v) /\ r = Ok v' /\ steps0 v v' /\ plain v'.
  Proof.
    intro E. unfold variable_node in E. destruct (assoc x (variables sc)) as [g|] eqn:Eg; [|discriminate].
    destruct (proj1 (proj2 R) _ _ Eg) as [nm [nm' [v [v' [H1 [-> H2]]]]]]. exists v, v'. split; [apply (node_value _ _ _ H1)|].
    split; [destruct pos; injection E as <-; reflexivity|]. split; [exact H2|]. eapply steps0_plain; [exact H2|].
    destruct (proj2 Hd _ _ H1) as [nm2 [v2 [X Hp]]]. injection X as <- <-. exact Hp.
  Qed.
  Lemma refined_fn f g : assoc f (functions sc) = Some g -> exists ps body body' nm nm',
    assoc f (functions sc0) = Some (NFn ps body nm) /\ g = NFn ps body' nm' /\ steps0 body body' /\ plain body'.
  Proof.
    intro E. destruct (proj2 (proj2 R) _ _ E) as [ps [b [b' [nm [nm' [H1 [H2 H3]]]]]]]. exists ps, b, b', nm, nm'. repeat (split; [assumption|]).
    eapply steps0_plain; [exact H3|]. destruct (proj1 Hd _ _ H1) as [ps2 [b2 [nm2 [X Hp]]]]. injection X as <- <- <-. exact Hp.
  Qed.
  Lemma refined_plain pos : plain_scope sc pos.
  Proof.
    split.
    - intros x r E. destruct (refined_node _ _ _ E) as [v [v' [_ [-> [_ Hp]]]]]. eauto.
    - intros f g E. destruct (refined_fn _ _ E) as [ps [b [b' [nm [nm' [_ [-> [_ Hp]]]]]]]]. eauto.
  Qed.
  Lemma refined_parameter p : parameter sc p -> parameter sc0 p.
  Proof. intros [f [ps [b [nm [E I]]]]]. destruct (refined_fn _ _ E) as [ps2 [b2 [b' [nm2 [nm' [H1 [X _]]]]]]]. injection X as <- -> ->. exists f, ps, b2, nm2. auto. Qed.
  Lemma refined_later p : later_param sc p -> parameter sc0 p.
  Proof. intros [f [ps [b [nm [E I]]]]]. apply refined_parameter. exists f, ps, b, nm. split; [exact E|]. destruct ps; [destruct I|right; exact I]. Qed.
  Lemma refined_hygienic pos : hygienic sc pos.
  Proof.
    split.
    - intros x v E y Hy _ L. destruct (refined_node _ _ _ E) as [v0 [v' [H1 [X [H2 _]]]]]. injection X as <-. apply refined_later in L.
      destruct (steps0_names [] _ _ H2 (var_value_names _ _ H1) y Hy) as [Q|[]]. contradiction.
    - intros f ps b nm E y Hy Hn L. destruct (refined_fn _ _ E) as [ps2 [b2 [b' [nm2 [nm' [H1 [X [H2 _]]]]]]]]. injection X as <- <- <-. apply refined_later in L.
      destruct (steps0_names ps _ _ H2 (body_names _ _ _ _ H1) y Hy) as [Q|Q]; contradiction.
  Qed.
  (** what unfolds in the refined scope unfolds in the original one *)
  Lemma refined_unf n n' : unf sc None n n' -> steps0 n n'.
  Proof.
    intro U. induction U using unf_induction.
    - apply rt_refl.
    - destruct (refined_node _ _ _ H) as [v0 [v' [H1 [X [H2 _]]]]]. injection X as <-. eapply rt_trans; [apply rt_step; apply u_var; exact H1|exact H2].
    - apply steps_infix; assumption.
    - apply (steps_args sc0 None f args args' H0 []).
    - destruct (refined_fn _ _ H) as [ps2 [b2 [b' [nm2 [nm' [E1 [X [E2 _]]]]]]]]. injection X as <- <- <-.
      eapply rt_trans; [apply (steps_args sc0 None f args args' H2 [])|].
      pose proof (Forall2_len _ _ _ H1) as L.
      eapply rt_trans; [apply rt_step; eapply u_call; [exact E1|cbn [app]; congruence|apply Forall2_same; apply u_refl]|].
      apply steps_subst_params; [exact Hd|exact Ha| |exact E2]. intros p a I. apply combine_In in I as [I _]. exists f, ps, b2, nm2. auto.
  Qed.
  Lemma refined_steps n n' : clos_refl_trans node (unf sc None) n n' -> steps0 n n'.
  Proof. induction 1; [apply refined_unf; assumption|apply rt_refl|eapply rt_trans; eauto]. Qed.

  (** ** Evaluating one definition *)
  Lemma eval_variables_var m : forall nm a, eval_variables m (NVar nm (VAst a)) = NVar nm (VAst (eval_variables m a)).
  Proof. induction m as [|[x v] m IH]; intros; [reflexivity|]. cbn [eval_variables replace_variable]. apply IH. Qed.
  Lemma eval_variables_fn m : forall ps b nm, eval_variables m (NFn ps b nm) = NFn ps (eval_variables m b) nm.
  Proof. induction m as [|[x v] m IH]; intros; [reflexivity|]. cbn [eval_variables replace_variable]. apply IH. Qed.
  Lemma eval_functions_var fs : forall nm a n', eval_functions sc fs (NVar nm (VAst a)) = Ok n' -> exists a', n' = NVar nm (VAst a') /\ eval_functions sc fs a = Ok a'.
  Proof.
    induction fs as [|f fs IH]; intros nm a n' H; cbn [eval_functions] in *; [injection H as <-; eauto|]. destruct (assoc f (functions sc)); [|apply IH; exact H].
    apply bind_ok in H as [x [H1 H]]. cbn [call_function] in H1. apply bind_ok in H1 as [a1 [H1 H2]]. injection H2 as <-. destruct (IH _ _ _ H) as [a' [-> H3]].
    exists a'. split; [reflexivity|]. rewrite H1. exact H3.
  Qed.
  Lemma eval_functions_fn fs : forall ps b nm n', eval_functions sc fs (NFn ps b nm) = Ok n' -> n' = NFn ps b nm.
  Proof.
    induction fs as [|f fs IH]; intros ps b nm n' H; cbn [eval_functions] in *; [injection H as <-; reflexivity|]. destruct (assoc f (functions sc)); [|apply IH; exact H].
    cbn [call_function bind] in H. apply IH in H. exact H.
  Qed.
  Lemma eval_var_loop fuel ord pos : forall k last nm a n', eval_loop fuel ord k sc pos last (NVar nm (VAst a)) = Ok n' -> exists a', n' = NVar nm (VAst a') /\ eval_loop fuel ord k sc pos last a = Ok a'.
  Proof.
    induction fuel as [|fuel IH]; intros k last nm a n' H; [discriminate|]. cbn [eval_loop] in *. change (extract_references sc (NVar nm (VAst a))) with (extract_references sc a) in H.
    destruct (_ || _); [injection H as <-; eauto|]. apply bind_ok in H as [x [H1 H]]. unfold eval_round in *. apply bind_ok in H1 as [m [H1 H2]]. rewrite eval_variables_var in H2.
    apply eval_functions_var in H2 as [a1 [-> H2]]. destruct (IH _ _ _ _ _ H) as [a' [-> H3]]. exists a'. split; [reflexivity|]. rewrite H1. cbn [bind]. rewrite H2. exact H3.
  Qed.
  Lemma eval_fn_loop fuel ord : forall k last ps b nm n', plain b -> eval_loop fuel ord k sc None last (NFn ps b nm) = Ok n' -> exists b', n' = NFn ps b' nm /\ clos_refl_trans node (unf sc None) b b'.
  Proof.
    induction fuel as [|fuel IH]; intros k last ps b nm n' Hp H; [discriminate|]. cbn [eval_loop] in *.
    destruct (_ || _); [injection H as <-; eexists; split; [reflexivity|apply rt_refl]|]. apply bind_ok in H as [x [H1 H]]. unfold eval_round in *.
    destruct (resolve_variables_ok sc None (refined_plain None) (ord (2 * k) (ref_variables (extract_references sc (NFn ps b nm))))) as [m [Hm [Hv _]]]. rewrite Hm in H1. cbn [bind] in H1.
    rewrite eval_variables_fn in H1. apply eval_functions_fn in H1. subst x.
    assert (S1 : clos_refl_trans node (unf sc None) b (eval_variables m b)) by (apply eval_variables_steps; auto using refined_plain).
    destruct (IH _ _ _ _ _ _ (steps0_plain _ _ (refined_steps _ _ S1) Hp) H) as [b' [-> S2]]. exists b'. split; [reflexivity|]. eapply rt_trans; eauto.
  Qed.
  Lemma eval_one_variable fuel ord x nm v n' : assoc x (variables sc) = Some (NVar nm (VAst v)) \/ (exists w, variable_node sc0 None x = Some (Ok w) /\ steps0 w v) ->
    ast_eval fuel ord sc None (NVar nm (VAst v)) = Ok n' -> exists v', n' = NVar nm (VAst v') /\ steps0 v v'.
  Proof.
    intros Hx H. apply eval_var_loop in H as [v' [-> H]]. exists v'. split; [reflexivity|]. apply refined_steps.
    assert (W : exists w, variable_node sc0 None x = Some (Ok w) /\ steps0 w v).
    { destruct Hx as [Hx|Hx]; [|exact Hx]. destruct (proj1 (proj2 R) _ _ Hx) as [nm1 [nm2 [w [w' [E1 [X E2]]]]]]. injection X as <- <-. exists w. split; [apply (node_value _ _ _ E1)|exact E2]. }
    destruct W as [w [E1 E2]]. eapply eval_loop_steps; [apply refined_plain|apply refined_hygienic| | |exact H].
    - eapply steps0_plain; [exact E2|]. destruct (proj1 (sc0_plain None) _ _ E1) as [w2 [X Hp]]. injection X as <-. exact Hp.
    - intros y Hy _ L. apply refined_later in L. destruct (steps0_names [] _ _ E2 (var_value_names _ _ E1) y Hy) as [Q|[]]. contradiction.
  Qed.
  Lemma eval_one_function fuel ord f ps b nm n' : (exists b0 nm0, assoc f (functions sc0) = Some (NFn ps b0 nm0) /\ steps0 b0 b) ->
    ast_eval fuel ord sc None (NFn ps b nm) = Ok n' -> exists b', n' = NFn ps b' nm /\ steps0 b b'.
  Proof.
    intros [b0 [nm0 [E1 E2]]] H. apply eval_fn_loop in H as [b' [-> H]].
    - exists b'. split; [reflexivity|]. apply refined_steps. exact H.
    - eapply steps0_plain; [exact E2|]. destruct (proj1 Hd _ _ E1) as [ps2 [b2 [nm2 [X Hp]]]]. injection X as <- <- <-. exact Hp.
  Qed.
End Refines.
