(** * EvalTotal: evaluation without recursion ends; wrong numbers of arguments are errors. *)
From Coq Require Import Permutation Relations.
From Verif Require Import Base BaseProofs Csvp Ast AstProofs Eval EvalSpec EvalProofs EvalRounds EvalComplete.

Lemma below_call_args sc rv rf ps K args f a : below sc rv rf ps K (NCall args f) -> In a args -> below sc rv rf ps K a.
Proof.
  intros [H1 H2] Ha. split.
  - intros x Hx. apply H1. rewrite refs_call. apply in_flat_map. eauto.
  - intros x Hx. apply H2. rewrite calls_call. right. apply in_flat_map. eauto.
Qed.
Lemma below_infix sc rv rf ps K l op r : below sc rv rf ps K (NInfix l op r) -> below sc rv rf ps K l /\ below sc rv rf ps K r.
Proof.
  intros [H1 H2]. repeat split; intros x Hx; first [apply H1|apply H2]; cbn [ref_names call_names]; apply in_or_app; auto.
Qed.

Section Total.
  Variables (sc : scope) (pos : option address) (rv rf : str -> nat).
  Hypothesis Hps : plain_scope sc pos.
  Hypothesis Hrk : ranked sc pos rv rf.

  Lemma variable_cases x : (exists v, variable_node sc pos x = Some (Ok v) /\ plain v) \/ assoc x (variables sc) = None.
  Proof.
    destruct (variable_node sc pos x) as [r|] eqn:E.
    - destruct (proj1 Hps _ _ E) as [v [-> Hv]]. eauto.
    - right. unfold variable_node in E. destruct (assoc x (variables sc)) as [[]|]; congruence.
  Qed.
  Lemma function_cases f : (exists ps body name, assoc f (functions sc) = Some (NFn ps body name) /\ plain body)
    \/ assoc f (functions sc) = None.
  Proof.
    destruct (assoc f (functions sc)) as [g|] eqn:E; [|auto].
    destruct (proj2 Hps _ _ E) as [ps [body [name [-> Hb]]]]. left. exists ps, body, name. auto.
  Qed.

  (** ** Every formula without recursion has a meaning *)
  Section Meaning.
    Hypothesis Har : arity_scope sc pos.
    Lemma expands_total_subst : forall K n ps args, plain n -> arity_ok sc n -> below sc rv rf ps K n ->
      length args = length ps -> Forall (fun a => exists m, expands sc pos a m) args ->
      exists m, expands sc pos (subst (combine ps args) n) m.
    Proof.
      induction K as [K IHK] using lt_wf_ind. intros n ps args Hp Ha Hb Hl Hargs.
      induction n using node_induction; cbn [subst]; try contradiction; try (eexists; apply x_leaf; reflexivity).
      - apply plain_call in Hp. apply arity_call in Ha as [Hal Ha].
        assert (G : exists ms, Forall2 (expands sc pos) (map (subst (combine ps args)) a) ms).
        { assert (Hsub : forall x, In x a -> below sc rv rf ps K x) by (intros x Hx; eapply below_call_args; eauto).
          clear Hb Hal. induction H as [|x l Hx Hf IH]; [exists []; constructor|].
          apply Forall_cons_iff in Hp as [Hp1 Hp2], Ha as [Ha1 Ha2].
          destruct (Hx Hp1 Ha1 (Hsub x (or_introl eq_refl))) as [m Hm].
          destruct IH as [ms Hms]; auto; [intros; apply Hsub; right; assumption|]. exists (m :: ms). constructor; assumption. }
        destruct G as [ms Hms]. destruct (function_cases n) as [[qs [body [name [Hf Hbody]]]]|Hf].
        + assert (Hr : rf n < K) by (apply (proj2 Hb); [rewrite calls_call; left; reflexivity|congruence]).
          destruct (IHK (rf n) Hr body qs (map (subst (combine ps args)) a)) as [m Hm]; auto.
          * eapply (proj2 Har); eauto.
          * eapply (proj2 Hrk); eauto.
          * rewrite map_length. eauto.
          * clear -Hms. induction Hms; constructor; eauto.
          * exists m. eapply x_call; eauto. rewrite map_length. eauto.
        + exists (NCall ms n). apply x_other_call; assumption.
      - destruct Hp, Ha. apply below_infix in Hb as [Hb1 Hb2]. destruct IHn1 as [l Hl1]; auto. destruct IHn2 as [r Hr]; auto.
        eexists. apply x_infix; eauto.
      - destruct (assoc r (combine ps args)) as [a|] eqn:E.
        + apply assoc_In, combine_In in E as [_ E]. rewrite Forall_forall in Hargs. auto.
        + destruct (variable_cases r) as [[v [Hv Hpv]]|Hn]; [|eexists; apply x_name; assumption].
          assert (Hr : rv r < K).
          { apply (proj1 Hb); [left; reflexivity|eapply not_in_params; eauto|eapply variable_node_assoc; eauto]. }
          destruct (IHK (rv r) Hr v [] []) as [m Hm]; auto.
          * eapply (proj1 Har); eauto.
          * eapply (proj1 Hrk); eauto.
          * simpl in Hm. rewrite subst_nil in Hm. exists m. eapply x_variable; eauto.
    Qed.
    Lemma expands_total K n : plain n -> arity_ok sc n -> below sc rv rf [] K n -> exists m, expands sc pos n m.
    Proof.
      intros Hp Ha Hb. destruct (expands_total_subst K n [] [] Hp Ha Hb eq_refl (Forall_nil _)) as [m Hm].
      simpl in Hm. rewrite subst_nil in Hm. eauto.
    Qed.
  End Meaning.

  (** ** A bound on the number of rounds *)
  Inductive costs : node -> nat -> Prop :=
  | k_leaf n : leaf n = true -> costs n 0
  | k_var x v c : variable_node sc pos x = Some (Ok v) -> costs v c -> costs (NRef x) (S c)
  | k_name x : assoc x (variables sc) = None -> costs (NRef x) 0
  | k_infix l op r c d : costs l c -> costs r d -> costs (NInfix l op r) (c + d)
  | k_call f args ps body name c d : assoc f (functions sc) = Some (NFn ps body name) -> length args = length ps ->
      costs_list args c -> costs (subst (combine ps args) body) d -> costs (NCall args f) (S (c + d))
  | k_bad f args ps body name c : assoc f (functions sc) = Some (NFn ps body name) -> length args <> length ps ->
      costs_list args c -> costs (NCall args f) c
  | k_other f args c : assoc f (functions sc) = None -> costs_list args c -> costs (NCall args f) c
  with costs_list : list node -> nat -> Prop :=
  | kl_nil : costs_list [] 0
  | kl_cons a l c d : costs a c -> costs_list l d -> costs_list (a :: l) (c + d).
  Scheme costs_mind := Minimality for costs Sort Prop with costs_list_mind := Minimality for costs_list Sort Prop.
  Combined Scheme costs_mutual from costs_mind, costs_list_mind.

  Lemma costs_total_subst : forall K n ps args, plain n -> below sc rv rf ps K n ->
    length args = length ps -> Forall (fun a => exists c, costs a c) args ->
    exists c, costs (subst (combine ps args) n) c.
  Proof.
    induction K as [K IHK] using lt_wf_ind. intros n ps args Hp Hb Hl Hargs.
    induction n using node_induction; cbn [subst]; try contradiction; try (eexists; apply k_leaf; reflexivity).
    - apply plain_call in Hp.
      assert (G : Forall (fun a => exists c, costs a c) (map (subst (combine ps args)) a)).
      { assert (Hsub : forall x, In x a -> below sc rv rf ps K x) by (intros x Hx; eapply below_call_args; eauto).
        clear Hb. induction H as [|x l Hx Hf IH]; [constructor|].
        apply Forall_cons_iff in Hp as [Hp1 Hp2]. constructor.
        - apply Hx; auto. apply Hsub. left. reflexivity.
        - apply IH; auto. intros; apply Hsub; right; assumption. }
      assert (G' : exists c, costs_list (map (subst (combine ps args)) a) c).
      { clear -G. induction G as [|x l [c Hc] Hl [d Hd]]; [eexists; constructor|]. exists (c + d). constructor; assumption. }
      destruct G' as [c Hc]. destruct (function_cases n) as [[qs [body [name [Hf Hbody]]]]|Hf].
      + assert (Hr : rf n < K) by (apply (proj2 Hb); [rewrite calls_call; left; reflexivity|congruence]).
        destruct (Nat.eq_dec (length (map (subst (combine ps args)) a)) (length qs)) as [E|E].
        * destruct (IHK (rf n) Hr body qs (map (subst (combine ps args)) a)) as [d Hd]; auto.
          -- eapply (proj2 Hrk); eauto.
          -- eexists. eapply k_call; eauto.
        * eexists. eapply k_bad; eauto.
      + eexists. apply k_other; eauto.
    - destruct Hp. apply below_infix in Hb as [Hb1 Hb2]. destruct IHn1 as [l Hl1]; auto. destruct IHn2 as [r Hr]; auto.
      eexists. apply k_infix; eauto.
    - destruct (assoc r (combine ps args)) as [a|] eqn:E.
      + apply assoc_In, combine_In in E as [_ E]. rewrite Forall_forall in Hargs. auto.
      + destruct (variable_cases r) as [[v [Hv Hpv]]|Hn]; [|eexists; apply k_name; assumption].
        assert (Hr : rv r < K).
        { apply (proj1 Hb); [left; reflexivity|eapply not_in_params; eauto|eapply variable_node_assoc; eauto]. }
        destruct (IHK (rv r) Hr v [] []) as [m Hm]; auto.
        * eapply (proj1 Hrk); eauto.
        * simpl in Hm. rewrite subst_nil in Hm. eexists. eapply k_var; eauto.
  Qed.
  Lemma costs_total K n : plain n -> below sc rv rf [] K n -> exists c, costs n c.
  Proof.
    intros Hp Hb. destruct (costs_total_subst K n [] [] Hp Hb eq_refl (Forall_nil _)) as [m Hm].
    simpl in Hm. rewrite subst_nil in Hm. eauto.
  Qed.

  Notation unf := (unf sc pos).
  Notation sunf := (sunf sc pos).
  Lemma costs_unf :
    (forall n c, costs n c -> forall n', unf n n' -> exists c', c' <= c /\ costs n' c')
    /\ (forall l c, costs_list l c -> forall l', Forall2 unf l l' -> exists c', c' <= c /\ costs_list l' c').
  Proof.
    apply costs_mutual.
    - intros n Hn n' Hu. inversion Hu; subst; try discriminate. exists 0. split; [lia|apply k_leaf; assumption].
    - intros x v c Hv Hc IH n' Hu. inversion Hu as [|y w Hw| | |]; subst.
      + exists (S c). split; [lia|eapply k_var; eauto].
      + rewrite Hv in Hw. inversion Hw; subst. exists c. split; [lia|assumption].
    - intros x Hx n' Hu. inversion Hu as [|y w Hw| | |]; subst; [exists 0; split; [lia|apply k_name; assumption]|].
      apply variable_node_assoc in Hw. congruence.
    - intros l op r c d H1 IH1 H2 IH2 n' Hu. inversion Hu; subst.
      + exists (c + d). split; [lia|apply k_infix; assumption].
      + destruct (IH1 l') as [c' [? ?]]; auto. destruct (IH2 r') as [d' [? ?]]; auto.
        exists (c' + d'). split; [lia|apply k_infix; assumption].
    - intros f args ps body name c d Hf Hl H1 IH1 H2 IH2 n' Hu.
      destruct (proj2 Hps _ _ Hf) as [ps' [body' [name' [E Hb]]]]. inversion E; subst ps' body' name'.
      inversion Hu as [| | |g a a' F|g a a' qs b nm Hg Hl' F]; subst.
      + exists (S (c + d)). split; [lia|eapply k_call; eauto].
      + destruct (IH1 a' F) as [c' [? ?]]. destruct (IH2 (subst (combine ps a') body)) as [d' [? ?]]; [apply unf_subst; assumption|].
        exists (S (c' + d')). split; [lia|]. eapply k_call; eauto. rewrite <- Hl. symmetry. eapply Forall2_len; eauto.
      + rewrite Hf in Hg. inversion Hg; subst.
        destruct (IH2 (subst (combine qs a') b)) as [d' [? ?]]; [apply unf_subst; assumption|]. exists d'. split; [lia|assumption].
    - intros f args ps body name c Hf Hl H1 IH1 n' Hu.
      inversion Hu as [| | |g a a' F|g a a' qs b nm Hg Hl' F]; subst.
      + exists c. split; [lia|eapply k_bad; eauto].
      + destruct (IH1 a' F) as [c' [? ?]]. exists c'. split; [lia|]. eapply k_bad; eauto. rewrite <- (Forall2_len _ _ _ F). assumption.
      + rewrite Hf in Hg. inversion Hg; subst. congruence.
    - intros f args c Hf H1 IH1 n' Hu.
      inversion Hu as [| | |g a a' F|g a a' qs b nm Hg Hl' F]; subst.
      + exists c. split; [lia|eapply k_other; eauto].
      + destruct (IH1 a' F) as [c' [? ?]]. exists c'. split; [lia|]. eapply k_other; eauto.
      + congruence.
    - intros l' F. inversion F; subst. exists 0. split; [lia|constructor].
    - intros a l c d H1 IH1 H2 IH2 l' F. inversion F as [|? a' ? l0 Ha Hl]; subst.
      destruct (IH1 a' Ha) as [c' [? ?]], (IH2 l0 Hl) as [d' [? ?]]. exists (c' + d'). split; [lia|constructor; assumption].
  Qed.
  Lemma costs_list_app l1 l2 c : costs_list (l1 ++ l2) c -> exists c1 c2, c = c1 + c2 /\ costs_list l1 c1 /\ costs_list l2 c2.
  Proof.
    revert c. induction l1 as [|a l1 IH]; intros c H; simpl in H.
    - exists 0, c. split; [reflexivity|]. split; [constructor|assumption].
    - inversion H; subst. destruct (IH _ H4) as [c1 [c2 [-> [? ?]]]]. exists (c0 + c1), c2. split; [lia|]. split; [constructor; assumption|assumption].
  Qed.
  Lemma costs_list_join l1 l2 c1 c2 : costs_list l1 c1 -> costs_list l2 c2 -> costs_list (l1 ++ l2) (c1 + c2).
  Proof.
    intros H1 H2. revert c1 H1. induction l1 as [|a l1 IH]; intros c1 H1; inversion H1; subst; [assumption|].
    simpl. rewrite <- Nat.add_assoc. constructor; auto.
  Qed.
  Lemma costs_sunf n n' : sunf n n' -> forall c, costs n c -> exists c', c' < c /\ costs n' c'.
  Proof.
    induction 1 as [x v Hv|l l' op r r' Hl IH Hr|l l' op r r' Hl Hr IH|f l1 l1' a a' l2 l2' F1 Ha IH F2|f args ps body name Hf Hl];
      intros c Hc.
    - inversion Hc as [m Hm|y w d Hw Hd|y Hy| | | |]; subst; try discriminate.
      + rewrite Hv in Hw. inversion Hw; subst. exists d. split; [lia|assumption].
      + apply variable_node_assoc in Hv. congruence.
    - inversion Hc as [m Hm| | |? ? ? c1 c2 H1 H2| | |]; subst; [discriminate|].
      destruct (IH c1 H1) as [c' [? ?]]. destruct (proj1 costs_unf _ _ H2 r' Hr) as [d' [? ?]].
      exists (c' + d'). split; [lia|constructor; assumption].
    - inversion Hc as [m Hm| | |? ? ? c1 c2 H1 H2| | |]; subst; [discriminate|].
      destruct (IH c2 H2) as [c' [? ?]]. destruct (proj1 costs_unf _ _ H1 l' Hl) as [d' [? ?]].
      exists (d' + c'). split; [lia|constructor; assumption].
    - assert (L : forall e, costs_list (l1 ++ a :: l2) e -> exists e', e' < e /\ costs_list (l1' ++ a' :: l2') e').
      { intros e He. apply costs_list_app in He as [e1 [e2 [-> [He1 He2]]]]. inversion He2 as [|? ? e3 e4 He3 He4]; subst.
        destruct (IH _ He3) as [d3 [? ?]]. destruct (proj2 costs_unf _ _ He1 _ F1) as [d1 [? ?]].
        destruct (proj2 costs_unf _ _ He4 _ F2) as [d4 [? ?]].
        exists (d1 + (d3 + d4)). split; [lia|]. apply costs_list_join; [assumption|constructor; assumption]. }
      assert (F : Forall2 unf (l1 ++ a :: l2) (l1' ++ a' :: l2')).
      { apply Forall2_app; [assumption|]. constructor; [apply sunf_unf; assumption|assumption]. }
      inversion Hc as [m Hm| | | |g args ps body name c1 d1 Hg Hlen H1 H2|g args ps body name c1 Hg Hlen H1|g args c1 Hg H1]; subst; [discriminate|..].
      + destruct (L _ H1) as [c' [? ?]].
        destruct (proj2 Hps _ _ Hg) as [ps' [body' [name' [E Hb]]]]. inversion E; subst ps' body' name'.
        destruct (proj1 costs_unf _ _ H2 (subst (combine ps (l1' ++ a' :: l2')) body)) as [d' [? ?]]; [apply unf_subst; assumption|].
        exists (S (c' + d')). split; [lia|]. eapply k_call; eauto. rewrite <- Hlen. symmetry. eapply Forall2_len; eauto.
      + destruct (L _ H1) as [c' [? ?]]. exists c'. split; [lia|]. eapply k_bad; eauto. rewrite <- (Forall2_len _ _ _ F). assumption.
      + destruct (L _ H1) as [c' [? ?]]. exists c'. split; [lia|]. eapply k_other; eauto.
    - inversion Hc as [m Hm| | | |g a qs b nm c1 d1 Hg Hlen H1 H2|g a qs b nm c1 Hg Hlen H1|g a c1 Hg H1]; subst; [discriminate|..].
      + rewrite Hf in Hg. inversion Hg; subst. exists d1. split; [lia|assumption].
      + rewrite Hf in Hg. inversion Hg; subst. congruence.
      + congruence.
  Qed.

  Hypothesis Hhy : hygienic sc pos.
  Notation steps := (clos_refl_trans node unf).
  Lemma costs_steps n n' : steps n n' -> forall c, costs n c -> exists c', c' <= c /\ costs n' c'.
  Proof.
    induction 1 as [x y H|x|x y z H1 IH1 H2 IH2]; intros c Hc.
    - eapply (proj1 costs_unf); eauto.
    - exists c. split; [lia|assumption].
    - destruct (IH1 c Hc) as [c1 [? Hc1]]. destruct (IH2 c1 Hc1) as [c2 [? ?]]. exists c2. split; [lia|assumption].
  Qed.
  Lemma round_cost vs fs n n' c :
    (forall x, In x vs <-> In x (ref_names n) /\ assoc x (variables sc) <> None) ->
    (forall f, In f fs <-> In f (call_names n) /\ assoc f (functions sc) <> None) ->
    vs <> [] \/ fs <> [] -> plain n -> uncaptured sc [] n -> costs n c -> eval_round sc pos vs fs n = Ok n' ->
    exists c', c' < c /\ costs n' c'.
  Proof.
    intros Hvs Hfs Hne Hp Hc Hcost H. unfold eval_round in H.
    destruct (resolve_variables_ok sc pos Hps vs) as [m [Hm [Hmv [_ Hfirst]]]]. rewrite Hm in H. cbn [bind] in H.
    destruct vs as [|x vs].
    - cbn [resolve_variables] in Hm. inversion Hm; subst m. cbn [eval_variables] in H.
      destruct fs as [|f fs]; [destruct Hne; congruence|]. cbn [eval_functions] in H.
      assert (Hi : In f (call_names n) /\ assoc f (functions sc) <> None) by (apply Hfs; left; reflexivity).
      destruct Hi as [Hi Hk]. destruct (assoc f (functions sc)) as [fn|] eqn:E; [|congruence].
      apply bind_ok_inv in H as [n1 [H1 H]].
      assert (S1 : sunf n n1) by (eapply call_function_sunf; eauto).
      destruct (costs_sunf _ _ S1 c Hcost) as [c1 [? Hc1]].
      pose proof (sunf_unf _ _ _ _ S1) as U1.
      assert (S2 : steps n1 n') by (eapply eval_functions_steps; eauto; [eapply unf_plain|eapply unf_uncaptured]; eauto).
      destruct (costs_steps _ _ S2 c1 Hc1) as [c2 [? ?]]. exists c2. split; [lia|assumption].
    - assert (Hi : In x (ref_names n) /\ assoc x (variables sc) <> None) by (apply Hvs; left; reflexivity).
      destruct Hi as [Hi Hk]. destruct (Hfirst x vs eq_refl Hk) as [v [m' ->]].
      apply Forall_cons_iff in Hmv as [Hx Hmv]. cbn [fst snd] in Hx. cbn [eval_variables] in H.
      assert (S1 : sunf n (replace_variable x v n)) by (eapply replace_sunf; eauto).
      destruct (costs_sunf _ _ S1 c Hcost) as [c1 [? Hc1]].
      pose proof (sunf_unf _ _ _ _ S1) as U1.
      assert (P1 : plain (replace_variable x v n)) by (eapply unf_plain; eauto).
      assert (C1 : uncaptured sc [] (replace_variable x v n)) by (eapply unf_uncaptured; eauto).
      assert (S2 : steps (replace_variable x v n) (eval_variables m' (replace_variable x v n))).
      { eapply eval_variables_steps; eauto. }
      destruct (steps_inv sc pos Hps Hhy _ _ S2 P1 C1) as [P2 C2].
      assert (S3 : steps (eval_variables m' (replace_variable x v n)) n') by (eapply eval_functions_steps; eauto).
      destruct (costs_steps _ _ (rt_trans _ _ _ _ _ S2 S3) c1 Hc1) as [c2 [? ?]]. exists c2. split; [lia|assumption].
  Qed.
  Lemma call_function_no_panic f fn n : plain n -> assoc f (functions sc) = Some fn ->
    (exists n', call_function f fn n = Ok n') \/ (exists e, call_function f fn n = Err e).
  Proof.
    intros Hp Hf. destruct (proj2 Hps _ _ Hf) as [ps [body [name [-> Hb]]]]. revert Hp.
    induction n using node_induction; intros Hp; try (left; eexists; reflexivity); try contradiction.
    - apply plain_call in Hp. destruct (str_eqb_spec n f) as [->|Hn].
      + cbn [call_function]. rewrite str_eqb_refl. destruct (length a =? length ps); eauto.
      + rewrite call_function_other by (apply str_eqb_neq; exact Hn).
        assert (G : (exists l', call_args f (NFn ps body name) a = Ok l') \/ (exists e, call_args f (NFn ps body name) a = Err e)).
        { induction H as [|x l Hx Hl IH]; [left; eexists; reflexivity|].
          apply Forall_cons_iff in Hp as [Hp1 Hp2]. cbn. fold (call_args f (NFn ps body name)).
          destruct (Hx Hp1) as [[x' ->]|[e ->]]; [|right; eexists; reflexivity]. cbn [bind].
          destruct (IH Hp2) as [[l' ->]|[e ->]]; [left|right]; eexists; reflexivity. }
        destruct G as [[l' ->]|[e ->]]; [left|right]; eexists; reflexivity.
    - destruct Hp as [Hp1 Hp2]. cbn [call_function]. destruct (IHn1 Hp1) as [[x ->]|[e ->]]; [|right; eexists; reflexivity].
      cbn [bind]. destruct (IHn2 Hp2) as [[y ->]|[e ->]]; [left|right]; eexists; reflexivity.
  Qed.
  Lemma eval_functions_no_panic fs : forall n, plain n -> uncaptured sc [] n ->
    (exists n', eval_functions sc fs n = Ok n') \/ (exists e, eval_functions sc fs n = Err e).
  Proof.
    induction fs as [|f fs IH]; intros n Hp Hc; cbn [eval_functions]; [eauto|].
    destruct (assoc f (functions sc)) as [fn|] eqn:E; [|auto].
    destruct (call_function_no_panic f fn n Hp E) as [[n1 H1]|[e ->]]; [|right; eexists; reflexivity].
    rewrite H1. cbn [bind]. assert (U : unf n n1) by (eapply call_function_unf; eauto).
    apply IH; [eapply unf_plain|eapply unf_uncaptured]; eauto.
  Qed.
  Lemma eval_round_no_panic vs fs n : plain n -> uncaptured sc [] n ->
    (exists n', eval_round sc pos vs fs n = Ok n') \/ (exists e, eval_round sc pos vs fs n = Err e).
  Proof.
    intros Hp Hc. unfold eval_round. destruct (resolve_variables_ok sc pos Hps vs) as [m [Hm [Hmv _]]]. rewrite Hm. cbn [bind].
    assert (S2 : steps n (eval_variables m n)) by (eapply eval_variables_steps; eauto).
    destruct (steps_inv sc pos Hps Hhy _ _ S2 Hp Hc). apply eval_functions_no_panic; assumption.
  Qed.
  Lemma eval_loop_ends ord : is_order ord -> forall c fuel k last n, c < fuel -> plain n -> uncaptured sc [] n -> costs n c ->
    (exists n', eval_loop fuel ord k sc pos last n = Ok n') \/ (exists e, eval_loop fuel ord k sc pos last n = Err e).
  Proof.
    intro Ho. induction c as [c IH] using lt_wf_ind. intros fuel k last n Hf Hp Hu Hc.
    destruct fuel as [|fuel]; [lia|]. cbn [eval_loop].
    destruct (refs_is_empty (extract_references sc n)) eqn:E; [left; eexists; reflexivity|].
    destruct (refs_eqb _ _); [left; eexists; reflexivity|]. cbn [orb].
    set (vs := ord (2 * k) (ref_variables (extract_references sc n))).
    set (fs := ord (2 * k + 1) (ref_functions (extract_references sc n))).
    destruct (eval_round_no_panic vs fs n Hp Hu) as [[n1 H1]|[e ->]]; [|right; eexists; reflexivity].
    rewrite H1. cbn [bind].
    destruct (round_cost vs fs n n1 c) as [c1 [Hlt Hc1]]; auto.
    - intro x. rewrite <- refs_vars_spec. split; intro Hx; (eapply Permutation_in; [|exact Hx]); [|apply Permutation_sym]; apply Ho.
    - intro x. rewrite <- refs_fns_spec. split; intro Hx; (eapply Permutation_in; [|exact Hx]); [|apply Permutation_sym]; apply Ho.
    - unfold refs_is_empty in E. unfold vs, fs.
      destruct (ref_functions (extract_references sc n)) as [|f r] eqn:F.
      + left. destruct (ref_variables (extract_references sc n)) as [|x r] eqn:V; [discriminate|].
        intro G. pose proof (Ho (2 * k) (x :: r)) as P. rewrite G in P. apply Permutation_nil in P. discriminate.
      + right. intro G. pose proof (Ho (2 * k + 1) (f :: r)) as P. rewrite G in P. apply Permutation_nil in P. discriminate.
    - assert (S1 : steps n n1) by (eapply eval_round_steps; eauto).
      destruct (steps_inv sc pos Hps Hhy _ _ S1 Hp Hu) as [P1 U1].
      apply (IH c1 Hlt); auto. lia.
  Qed.
  Lemma eval_ends n K : plain n -> uncaptured sc [] n -> below sc rv rf [] K n ->
    exists fuel0, forall ord fuel, is_order ord -> fuel0 <= fuel ->
      (exists n', ast_eval fuel ord sc pos n = Ok n') \/ (exists e, ast_eval fuel ord sc pos n = Err e).
  Proof.
    intros Hp Hu Hb. destruct (costs_total K n Hp Hb) as [c Hc]. exists (S c). intros ord fuel Ho Hf.
    eapply eval_loop_ends; eauto.
  Qed.
End Total.

(** ** A wrong number of arguments *)
Section Arity.
  Variables (sc : scope) (pos : option address) (f : str) (ps : list str) (body : node) (name : str) (k : nat).
  Hypothesis Hf : assoc f (functions sc) = Some (NFn ps body name).
  Hypothesis Hk : k <> length ps.
  Lemma exposed_replace x v n : exposed sc f k n -> exposed sc f k (replace_variable x v n).
  Proof.
    induction 1.
    - rewrite replace_call. apply e_call. rewrite map_length. assumption.
    - apply e_left. assumption.
    - apply e_right. assumption.
    - rewrite replace_call. eapply e_arg; eauto. apply in_map. assumption.
  Qed.
  Lemma exposed_variables m : forall n, exposed sc f k n -> exposed sc f k (eval_variables m n).
  Proof. induction m as [|[x v] m IH]; intros n H; [assumption|]. cbn [eval_variables]. apply IH, exposed_replace, H. Qed.
  Lemma call_args_list_err g fn a a0 l : In a l -> call_args g fn l = Ok a0 -> exists a', call_function g fn a = Ok a' /\ In a' a0.
  Proof.
    revert a0. induction l as [|b l IH]; intros l' Ha H; [destruct Ha|]. cbn in H. fold (call_args g fn) in H.
    apply bind_ok_inv in H as [b' [Hb H]]. apply bind_ok_inv in H as [r' [Hr H]]. inversion H; subst.
    destruct Ha as [->|Ha]; [exists b'; split; [assumption|left; reflexivity]|].
    destruct (IH r' Ha Hr) as [a' [? ?]]. exists a'. split; [assumption|right; assumption].
  Qed.
  Lemma exposed_call_other g fn n n' : assoc g (functions sc) = Some fn -> g <> f ->
    exposed sc f k n -> call_function g fn n = Ok n' -> exposed sc f k n'.
  Proof.
    intros Hg Hd He. revert n'. induction He as [args Hl|l op r He IH|l op r He IH|args h a Hh Ha He IH]; intros n' H.
    - rewrite call_function_other in H by (apply str_eqb_neq; congruence).
      apply bind_ok_inv in H as [a' [H H']]. inversion H'; subst. apply call_args_inv in H. apply e_call.
      symmetry. eapply Forall2_len; eauto.
    - cbn [call_function] in H. apply bind_ok_inv in H as [l' [Hl H]]. apply bind_ok_inv in H as [r' [Hr H]].
      inversion H; subst. apply e_left. auto.
    - cbn [call_function] in H. apply bind_ok_inv in H as [l' [Hl H]]. apply bind_ok_inv in H as [r' [Hr H]].
      inversion H; subst. apply e_right. auto.
    - rewrite call_function_other in H by (apply str_eqb_neq; congruence).
      apply bind_ok_inv in H as [a' [H H']]. inversion H'; subst.
      destruct (call_args_list_err _ _ _ _ _ Ha H) as [b [Hb Hin]]. eapply e_arg; eauto.
  Qed.
  Lemma exposed_call_same n n' : exposed sc f k n -> call_function f (NFn ps body name) n <> Ok n'.
  Proof.
    intro He. revert n'. induction He as [args Hl|l op r He IH|l op r He IH|args h a Hh Ha He IH]; intros n' H.
    - cbn [call_function] in H. rewrite str_eqb_refl in H. destruct (length args =? length ps) eqn:E; [|discriminate].
      apply Nat.eqb_eq in E. congruence.
    - cbn [call_function] in H. apply bind_ok_inv in H as [l' [Hl H]]. eapply IH; eauto.
    - cbn [call_function] in H. apply bind_ok_inv in H as [l' [Hl H]]. apply bind_ok_inv in H as [r' [Hr H]]. eapply IH; eauto.
    - rewrite call_function_other in H by (apply str_eqb_neq; congruence).
      apply bind_ok_inv in H as [a' [H H']]. destruct (call_args_list_err _ _ _ _ _ Ha H) as [b [Hb Hin]]. eapply IH; eauto.
  Qed.
  Lemma exposed_functions fs : In f fs -> forall n n', exposed sc f k n -> eval_functions sc fs n <> Ok n'.
  Proof.
    induction fs as [|g fs IH]; intros Hi n n' He H; [destruct Hi|]. cbn [eval_functions] in H.
    destruct (str_eqb_spec g f) as [->|Hd].
    - rewrite Hf in H. apply bind_ok_inv in H as [n1 [H1 H]]. eapply exposed_call_same; eauto.
    - destruct Hi as [|Hi]; [congruence|]. destruct (assoc g (functions sc)) as [fn|] eqn:E.
      + apply bind_ok_inv in H as [n1 [H1 H]]. apply (IH Hi n1 n'); [|assumption]. exact (exposed_call_other g fn n n1 E Hd He H1).
      + eapply IH; eauto.
  Qed.
  Lemma exposed_in_calls n : exposed sc f k n -> In f (call_names n).
  Proof.
    induction 1.
    - rewrite calls_call. left. reflexivity.
    - cbn [call_names]. apply in_or_app. auto.
    - cbn [call_names]. apply in_or_app. auto.
    - rewrite calls_call. right. apply in_flat_map. eauto.
  Qed.
  Lemma exposed_never_ok ord fuel n n' : is_order ord -> exposed sc f k n -> ast_eval fuel ord sc pos n <> Ok n'.
  Proof.
    intros Ho He H. unfold ast_eval in H. destruct fuel; [discriminate|]. cbn [eval_loop] in H.
    assert (Hi : In f (ref_functions (extract_references sc n))).
    { apply refs_fns_spec. split; [apply exposed_in_calls; assumption|congruence]. }
    replace (refs_is_empty _) with false in H.
    2:{ unfold refs_is_empty. destruct (ref_functions _); [destruct Hi|reflexivity]. }
    replace (refs_eqb _ _) with false in H.
    2:{ unfold refs_eqb, set_eqb. destruct (ref_functions _); [destruct Hi|reflexivity]. }
    cbn [orb] in H. apply bind_ok_inv in H as [n1 [H1 _]]. unfold eval_round in H1.
    apply bind_ok_inv in H1 as [m [_ H1]]. eapply exposed_functions; [|apply exposed_variables; exact He|exact H1].
    eapply Permutation_in; [apply Permutation_sym, Ho|exact Hi].
  Qed.
  Lemma call_function_two g fn n : (exists n', call_function g fn n = Ok n') \/ (exists e, call_function g fn n = Err e).
  Proof.
    induction n using node_induction; try (left; eexists; reflexivity).
    - destruct (str_eqb n g) eqn:En.
      + cbn [call_function]. rewrite En. destruct fn; try (left; eexists; reflexivity).
        destruct (length a =? length args); [left|right]; eexists; reflexivity.
      + rewrite call_function_other by assumption.
        assert (G : (exists l', call_args g fn a = Ok l') \/ (exists e, call_args g fn a = Err e)).
        { induction H as [|x l Hx Hl IH]; [left; eexists; reflexivity|].
          cbn. fold (call_args g fn). destruct Hx as [[x' ->]|[e ->]]; [|right; eexists; reflexivity]. cbn [bind].
          destruct IH as [[l' ->]|[e ->]]; [left|right]; eexists; reflexivity. }
        destruct G as [[l' ->]|[e ->]]; [left|right]; eexists; reflexivity.
    - cbn [call_function]. destruct IHn1 as [[x ->]|[e ->]]; [|right; eexists; reflexivity].
      cbn [bind]. destruct IHn2 as [[y ->]|[e ->]]; [left|right]; eexists; reflexivity.
    - destruct v as [a0|a0|c0 f0|r0|r0 f0]; try (left; eexists; reflexivity). cbn [call_function].
      destruct (H a0 eq_refl) as [[x ->]|[e ->]]; [left|right]; eexists; reflexivity.
  Qed.
  Lemma eval_functions_two fs : forall n, (exists n', eval_functions sc fs n = Ok n') \/ (exists e, eval_functions sc fs n = Err e).
  Proof.
    induction fs as [|g fs IH]; intro n; cbn [eval_functions]; [left; eexists; reflexivity|].
    destruct (assoc g (functions sc)) as [fn|]; [|auto].
    destruct (call_function_two g fn n) as [[n1 ->]|[e ->]]; [cbn [bind]; apply IH|right; eexists; reflexivity].
  Qed.
  Lemma exposed_err ord fuel n : plain_scope sc pos -> is_order ord -> exposed sc f k n ->
    exists e, ast_eval (S fuel) ord sc pos n = Err e.
  Proof.
    intros Hps Ho He. pose proof (exposed_never_ok ord 1 n) as Never. unfold ast_eval in *. cbn [eval_loop] in *.
    assert (Hi : In f (ref_functions (extract_references sc n))).
    { apply refs_fns_spec. split; [apply exposed_in_calls; assumption|congruence]. }
    replace (refs_is_empty _) with false.
    2:{ unfold refs_is_empty. destruct (ref_functions _); [destruct Hi|reflexivity]. }
    replace (refs_eqb _ _) with false.
    2:{ unfold refs_eqb, set_eqb. destruct (ref_functions _); [destruct Hi|reflexivity]. }
    cbn [orb]. unfold eval_round.
    destruct (resolve_variables_ok sc pos Hps (ord (2 * 0) (ref_variables (extract_references sc n)))) as [m [-> _]]. cbn [bind].
    destruct (eval_functions_two (ord (2 * 0 + 1) (ref_functions (extract_references sc n))) (eval_variables m n)) as [[n1 H1]|[e ->]].
    - exfalso. eapply exposed_functions; [|apply exposed_variables; exact He|exact H1].
      eapply Permutation_in; [apply Permutation_sym, Ho|exact Hi].
    - eexists. reflexivity.
  Qed.
End Arity.
