(** * EvalRounds: what one round of evaluation does. *)
From Coq Require Import Permutation Relations.
From Verif Require Import Base BaseProofs Csvp Ast AstProofs Eval EvalSpec EvalProofs.

(** ** The references found in a formula *)
Lemma has_key_assoc {A} k (m : list (str * A)) : has_key k m = true <-> assoc k m <> None.
Proof. unfold has_key. destruct (assoc k m); split; congruence. Qed.
Lemma In_set_insert x k l : In x (set_insert k l) <-> x = k \/ In x l.
Proof.
  unfold set_insert. destruct (str_in k l) eqn:E.
  - apply str_in_spec in E. split; [auto|intros [->|]; auto].
  - rewrite in_app_iff. simpl. split; [intros [|[|[]]]; auto|intros [|]; auto].
Qed.
Lemma extract_vars sc n x : forall acc, In x (ref_variables (extract_dfs sc n acc)) <->
  In x (ref_variables acc) \/ (In x (ref_names n) /\ assoc x (variables sc) <> None).
Proof.
  induction n using node_induction; intro acc; cbn [extract_dfs ref_names]; try (simpl; tauto).
  - apply IHn.
  - set (acc1 := if has_key n (functions sc) then _ else acc).
    assert (E : ref_variables acc1 = ref_variables acc) by (unfold acc1; destruct (has_key n (functions sc)); reflexivity).
    rewrite <- E. clearbody acc1. clear E. revert acc1.
    induction H as [|a l Ha Hl IH]; intro acc1; [simpl; tauto|]. rewrite IH, Ha, in_app_iff. tauto.
  - rewrite IHn2, IHn1, in_app_iff. tauto.
  - destruct (has_key r (variables sc)) eqn:E; cbn [ref_variables].
    + rewrite In_set_insert. apply has_key_assoc in E. simpl. split; [intros [->|]; auto|].
      intros [|[[->|[]] _]]; auto.
    + assert (assoc r (variables sc) = None).
      { destruct (assoc r (variables sc)) eqn:F; [|reflexivity].
        assert (has_key r (variables sc) = true) by (apply has_key_assoc; congruence). congruence. }
      simpl. split; [auto|]. intros [|[[->|[]] ?]]; [auto|congruence].
  - destruct v as [a0|a0|c0 f0|r0|r0 f0]; try (simpl; tauto). apply (H a0 eq_refl).
Qed.
Lemma extract_fns sc n x : forall acc, In x (ref_functions (extract_dfs sc n acc)) <->
  In x (ref_functions acc) \/ (In x (call_names n) /\ assoc x (functions sc) <> None).
Proof.
  induction n using node_induction; intro acc; cbn [extract_dfs call_names]; try (simpl; tauto).
  - apply IHn.
  - set (acc1 := if has_key n (functions sc) then _ else acc).
    assert (E : In x (ref_functions acc1) <-> In x (ref_functions acc) \/ (x = n /\ assoc x (functions sc) <> None)).
    { unfold acc1. destruct (has_key n (functions sc)) eqn:F; cbn [ref_functions].
      - apply has_key_assoc in F. rewrite In_set_insert. split; [intros [->|]; auto|intros [|[-> _]]; auto].
      - split; [auto|]. intros [|[-> G]]; [auto|]. apply has_key_assoc in G. congruence. }
    clearbody acc1.
    assert (G : forall acc1, In x (ref_functions ((fix go l acc := match l with [] => acc | y :: r => go r (extract_dfs sc y acc) end) a acc1))
       <-> In x (ref_functions acc1) \/ (In x (flat_map call_names a) /\ assoc x (functions sc) <> None)).
    { clear acc1 E acc. induction H as [|y l Ha Hl IH]; intro acc1; [simpl; tauto|]. rewrite IH, Ha. simpl flat_map. rewrite in_app_iff. tauto. }
    rewrite G, E. change ((fix go l := match l with [] => [] | y :: r => call_names y ++ go r end) a) with (flat_map call_names a).
    simpl In. split; [intros [[|[-> ?]]|[? ?]]; auto|intros [|[[->|] ?]]; auto].
  - rewrite IHn2, IHn1, in_app_iff. tauto.
  - destruct (has_key r (variables sc)); simpl; tauto.
  - destruct v as [a0|a0|c0 f0|r0|r0 f0]; try (simpl; tauto). apply (H a0 eq_refl).
Qed.
Lemma refs_vars_spec sc n x : In x (ref_variables (extract_references sc n)) <->
  In x (ref_names n) /\ assoc x (variables sc) <> None.
Proof. unfold extract_references. rewrite extract_vars. simpl. tauto. Qed.
Lemma refs_fns_spec sc n x : In x (ref_functions (extract_references sc n)) <->
  In x (call_names n) /\ assoc x (functions sc) <> None.
Proof. unfold extract_references. rewrite extract_fns. simpl. tauto. Qed.
Lemma list_nil_In {A} (l : list A) : (forall x, ~ In x l) -> l = [].
Proof. destruct l; [auto|]. intro H. exfalso. apply (H a). left. reflexivity. Qed.
Lemma empty_refs sc n : refs_is_empty (extract_references sc n) = true <-> nothing_known sc n.
Proof.
  unfold refs_is_empty, nothing_known. split.
  - destruct (ref_functions _) eqn:F; [|discriminate]. destruct (ref_variables _) eqn:V; [|discriminate]. intros _. split.
    + intros x Hx. destruct (assoc x (variables sc)) eqn:E; [|reflexivity]. exfalso.
      assert (In x (ref_variables (extract_references sc n))) as G by (apply refs_vars_spec; split; congruence).
      rewrite V in G. destruct G.
    + intros x Hx. destruct (assoc x (functions sc)) eqn:E; [|reflexivity]. exfalso.
      assert (In x (ref_functions (extract_references sc n))) as G by (apply refs_fns_spec; split; congruence).
      rewrite F in G. destruct G.
  - intros [H1 H2]. rewrite (list_nil_In (ref_functions _)), (list_nil_In (ref_variables _)); [reflexivity|..].
    + intros x Hx. apply refs_vars_spec in Hx as [Ha Hb]. auto.
    + intros x Hx. apply refs_fns_spec in Hx as [Ha Hb]. auto.
Qed.

(** ** A formula without known names is left alone *)
Lemma eval_untouched fuel ord sc pos n : 0 < fuel -> nothing_known sc n -> ast_eval fuel ord sc pos n = Ok n.
Proof.
  intros Hf H. destruct fuel; [lia|]. unfold ast_eval. cbn [eval_loop].
  apply empty_refs in H. rewrite H. reflexivity.
Qed.

(** ** Steps are unfoldings *)
Section Steps.
  Variables (sc : scope) (pos : option address).
  Hypothesis Hps : plain_scope sc pos.
  Notation unf := (unf sc pos).

  Lemma Forall2_same {A} (R : A -> A -> Prop) l : (forall x, R x x) -> Forall2 R l l.
  Proof. intro H. induction l; constructor; auto. Qed.

  (** at least one name is unfolded *)
  Inductive sunf : node -> node -> Prop :=
  | s_var x v : variable_node sc pos x = Some (Ok v) -> sunf (NRef x) v
  | s_left l l' op r r' : sunf l l' -> unf r r' -> sunf (NInfix l op r) (NInfix l' op r')
  | s_right l l' op r r' : unf l l' -> sunf r r' -> sunf (NInfix l op r) (NInfix l' op r')
  | s_args f l1 l1' a a' l2 l2' : Forall2 unf l1 l1' -> sunf a a' -> Forall2 unf l2 l2' ->
      sunf (NCall (l1 ++ a :: l2) f) (NCall (l1' ++ a' :: l2') f)
  | s_call f args ps body name :
      assoc f (functions sc) = Some (NFn ps body name) -> length args = length ps ->
      sunf (NCall args f) (subst (combine ps args) body).
  Lemma sunf_unf n n' : sunf n n' -> unf n n'.
  Proof.
    induction 1.
    - apply u_var. assumption.
    - apply u_infix; assumption.
    - apply u_infix; assumption.
    - apply u_args. apply Forall2_app; [assumption|]. constructor; assumption.
    - eapply u_call; eauto. apply Forall2_same. apply u_refl.
  Qed.

  Lemma replace_unf x v n : plain n -> variable_node sc pos x = Some (Ok v) -> unf n (replace_variable x v n).
  Proof.
    intros Hp Hv. induction n using node_induction; try apply u_refl; try contradiction.
    - rewrite replace_call. apply u_args. apply plain_call in Hp.
      induction H as [|a0 l Ha Hl IH]; simpl; constructor; apply Forall_cons_iff in Hp as [? ?]; auto.
    - destruct Hp. apply u_infix; auto.
    - cbn [replace_variable]. destruct (str_eqb_spec x r) as [->|]; [apply u_var; assumption|apply u_refl].
  Qed.
  Lemma replace_sunf x v n : plain n -> variable_node sc pos x = Some (Ok v) -> In x (ref_names n) ->
    sunf n (replace_variable x v n).
  Proof.
    intros Hp Hv Hx. induction n using node_induction; try (destruct Hx; fail); try contradiction.
    - rewrite replace_call. apply plain_call in Hp. rewrite refs_call in Hx.
      apply in_flat_map in Hx as [y [Hy Hx]]. apply in_split in Hy as [l1 [l2 ->]].
      rewrite map_app. cbn [map]. apply Forall_app in H as [Ha H]. apply Forall_cons_iff in H as [Hb Hc].
      apply Forall_app in Hp as [Hp1 Hp]. apply Forall_cons_iff in Hp as [Hp2 Hp3].
      apply s_args; auto.
      + clear -Hp1 Hv. induction l1; simpl; constructor; apply Forall_cons_iff in Hp1 as [? ?]; auto. apply replace_unf; auto.
      + clear -Hp3 Hv. induction l2; simpl; constructor; apply Forall_cons_iff in Hp3 as [? ?]; auto. apply replace_unf; auto.
    - destruct Hp. cbn [ref_names] in Hx. cbn [replace_variable]. apply in_app_or in Hx as [Hx|Hx].
      + apply s_left; auto. apply replace_unf; auto.
      + apply s_right; auto. apply replace_unf; auto.
    - destruct Hx as [->|[]]. cbn [replace_variable]. rewrite str_eqb_refl. apply s_var. assumption.
  Qed.

  (** [call_function] over a list of arguments *)
  Definition call_args (f : str) (fn : node) : list node -> outcome eval_error (list node) :=
    fix go l := match l with
    | [] => Ok []
    | a :: r => do a' <- call_function f fn a; do r' <- go r; Ok (a' :: r')
    end.
  Lemma call_function_other f fn args name : str_eqb name f = false ->
    call_function f fn (NCall args name) = do args' <- call_args f fn args; Ok (NCall args' name).
  Proof. intro E. cbn [call_function]. rewrite E. reflexivity. Qed.
  Lemma call_args_inv f fn l l' : call_args f fn l = Ok l' ->
    Forall2 (fun a a' => call_function f fn a = Ok a') l l'.
  Proof.
    revert l'. induction l as [|a l IH]; intros l' H; cbn in H; fold (call_args f fn) in H.
    - inversion H. constructor.
    - apply bind_ok_inv in H as [a' [Ha H]]. apply bind_ok_inv in H as [r' [Hr H]]. inversion H; subst. constructor; auto.
  Qed.

  (** the arguments in [n] do not mention a later parameter *)
  Lemma uncaptured_call args f : uncaptured sc [] (NCall args f) -> Forall (uncaptured sc []) args.
  Proof.
    intro H. apply Forall_forall. intros a Ha x Hx _. apply H; [|intros []]. rewrite refs_call. apply in_flat_map. eauto.
  Qed.
  Lemma uncaptured_infix l op r : uncaptured sc [] (NInfix l op r) -> uncaptured sc [] l /\ uncaptured sc [] r.
  Proof. intro H. split; intros x Hx _; (apply H; [|intros []]); cbn [ref_names]; apply in_or_app; auto. Qed.

  Lemma call_root f ps body name args : assoc f (functions sc) = Some (NFn ps body name) ->
    length args = length ps -> uncaptured sc [] (NCall args f) ->
    replace_params ps args body = subst (combine ps args) body.
  Proof.
    intros Hf Hl Hu. apply replace_params_subst; [assumption|].
    intros p a Hp Ha Hx. apply (Hu p).
    - rewrite refs_call. apply in_flat_map. eauto.
    - intros [].
    - exists f, ps, body, name. auto.
  Qed.
  Lemma call_function_unf f fn n n' : plain n -> uncaptured sc [] n -> assoc f (functions sc) = Some fn ->
    call_function f fn n = Ok n' -> unf n n'.
  Proof.
    intros Hp Hu Hf. destruct (proj2 Hps _ _ Hf) as [ps [body [name [-> Hb]]]].
    revert n' Hp Hu. induction n using node_induction; intros n' Hp Hu H'; try contradiction;
      try (inversion H'; apply u_refl).
    - destruct (str_eqb_spec n f) as [->|Hn].
      + cbn [call_function] in H'. rewrite str_eqb_refl in H'.
        destruct (length a =? length ps) eqn:E; [|discriminate]. apply Nat.eqb_eq in E. inversion H'; subst.
        rewrite (call_root f ps body name a Hf E Hu). eapply u_call; eauto. apply Forall2_same. apply u_refl.
      + rewrite call_function_other in H' by (apply str_eqb_neq; exact Hn).
        apply bind_ok_inv in H' as [a' [Ha H']]. inversion H'; subst. apply u_args.
        apply call_args_inv in Ha. apply plain_call in Hp. apply uncaptured_call in Hu.
        clear H'. revert H Hp Hu. induction Ha as [|x y l l' Hxy Hl IH]; intros; constructor;
          apply Forall_cons_iff in H as [? ?], Hp as [? ?], Hu as [? ?]; auto.
    - destruct Hp as [Hp1 Hp2]. apply uncaptured_infix in Hu as [Hu1 Hu2].
      cbn [call_function] in H'. apply bind_ok_inv in H' as [l' [Hl H']]. apply bind_ok_inv in H' as [r' [Hr H']].
      inversion H'; subst. apply u_infix; auto.
  Qed.
  Lemma call_function_sunf f fn n n' : plain n -> uncaptured sc [] n -> assoc f (functions sc) = Some fn ->
    In f (call_names n) -> call_function f fn n = Ok n' -> sunf n n'.
  Proof.
    intros Hp Hu Hf. pose proof (fun n n' => call_function_unf f fn n n') as U.
    destruct (proj2 Hps _ _ Hf) as [ps [body [name [-> Hb]]]].
    revert n' Hp Hu. induction n using node_induction; intros n' Hp Hu Hi H'; try contradiction; try (destruct Hi; fail).
    - destruct (str_eqb_spec n f) as [->|Hn].
      + cbn [call_function] in H'. rewrite str_eqb_refl in H'.
        destruct (length a =? length ps) eqn:E; [|discriminate]. apply Nat.eqb_eq in E. inversion H'; subst.
        rewrite (call_root f ps body name a Hf E Hu). eapply s_call; eauto.
      + rewrite call_function_other in H' by (apply str_eqb_neq; exact Hn).
        apply bind_ok_inv in H' as [a' [Ha H']]. inversion H'; subst. clear H'.
        apply call_args_inv in Ha. apply plain_call in Hp. apply uncaptured_call in Hu.
        rewrite calls_call in Hi. destruct Hi as [Hi|Hi]; [congruence|].
        apply in_flat_map in Hi as [y [Hy Hi]]. apply in_split in Hy as [l1 [l2 ->]].
        apply Forall2_app_inv_l in Ha as [k1 [k2 [F1 [F2 ->]]]]. inversion F2 as [|? y' ? k3 Hy F3]; subst.
        apply Forall_app in H as [Ha H], Hp as [Hp1 Hp], Hu as [Hu1 Hu].
        apply Forall_cons_iff in H as [H H3], Hp as [Hp2 Hp3], Hu as [Hu2 Hu3].
        apply s_args.
        * clear -F1 U Hf Hp1 Hu1. induction F1; constructor; apply Forall_cons_iff in Hp1 as [? ?], Hu1 as [? ?]; auto.
        * auto.
        * clear -F3 U Hf Hp3 Hu3. induction F3; constructor; apply Forall_cons_iff in Hp3 as [? ?], Hu3 as [? ?]; auto.
    - destruct Hp as [Hp1 Hp2]. apply uncaptured_infix in Hu as [Hu1 Hu2].
      cbn [call_function] in H'. apply bind_ok_inv in H' as [l' [Hl H']]. apply bind_ok_inv in H' as [r' [Hr H']].
      inversion H'; subst. cbn [call_names] in Hi. apply in_app_or in Hi as [Hi|Hi].
      + apply s_left; auto.
      + apply s_right; auto.
  Qed.

  (** ** What is preserved *)
  Hypothesis Hhy : hygienic sc pos.
  Lemma unf_plain n n' : plain n -> unf n n' -> plain n'.
  Proof.
    intros Hp Hu. revert Hp. induction Hu using unf_induction; intro Hp.
    - assumption.
    - destruct (proj1 Hps _ _ H) as [v' [E Hv]]. inversion E; subst. assumption.
    - destruct Hp. split; auto.
    - apply plain_call in Hp. apply plain_call. clear H. induction H0; constructor; apply Forall_cons_iff in Hp as [? ?]; auto.
    - apply plain_call in Hp. destruct (proj2 Hps _ _ H) as [ps' [body' [name' [E Hb]]]]. inversion E; subst.
      apply plain_subst; [assumption|]. intros p a Hpa. apply combine_In in Hpa as [_ Ha].
      clear -H2 Hp Ha. revert Ha. induction H2; intro Ha; [destruct Ha|]. apply Forall_cons_iff in Hp as [? ?].
      destruct Ha as [<-|Ha]; auto.
  Qed.
  Lemma combine_assoc_Some {A} x (ps : list str) (l : list A) : In x ps -> length l = length ps -> exists a, assoc x (combine ps l) = Some a.
  Proof.
    revert l. induction ps as [|p ps IH]; intros l H Hl; [destruct H|]. destruct l as [|a l]; [discriminate|].
    simpl. destruct (str_eqb_spec x p) as [->|Hn]; [eauto|]. destruct H as [->|H]; [congruence|]. apply IH; auto.
  Qed.
  Lemma unf_uncaptured n n' : uncaptured sc [] n -> unf n n' -> uncaptured sc [] n'.
  Proof.
    intros Hc Hu. revert Hc. induction Hu using unf_induction; intro Hc.
    - assumption.
    - apply (proj1 Hhy _ _ H).
    - apply uncaptured_infix in Hc as [H1 H2]. intros x Hx Hn. cbn [ref_names] in Hx. apply in_app_or in Hx as [Hx|Hx].
      + apply IHHu1; auto.
      + apply IHHu2; auto.
    - apply uncaptured_call in Hc. intros x Hx Hn. rewrite refs_call in Hx. apply in_flat_map in Hx as [y [Hy Hx]].
      clear H. induction H0; [destruct Hy|]. apply Forall_cons_iff in Hc as [Hc1 Hc2].
      destruct Hy as [->|Hy]; auto. apply (H Hc1 x); auto.
    - apply uncaptured_call in Hc. intros x Hx Hn. apply refs_subst in Hx as [[Hx Ha]|[p [a [Hpa [_ Hx]]]]].
      + apply (proj2 Hhy _ _ _ _ H x Hx). intro Hp.
        destruct (combine_assoc_Some x ps args' Hp) as [b Hb]; [|congruence].
        rewrite <- H0. symmetry. eapply Forall2_len. eassumption.
      + apply combine_In in Hpa as [_ Ha]. clear -H2 Hc Ha Hx Hn.
        induction H2; [destruct Ha|]. apply Forall_cons_iff in Hc as [Hc1 Hc2].
        destruct Ha as [->|Ha]; auto. apply (H Hc1 x); auto.
  Qed.

  (** ** Rounds *)
  Lemma resolve_variables_ok xs : exists m, resolve_variables sc pos xs = Ok m
    /\ Forall (fun kv => variable_node sc pos (fst kv) = Some (Ok (snd kv))) m
    /\ (forall x, In x (map fst m) <-> In x xs /\ assoc x (variables sc) <> None)
    /\ (forall x r, xs = x :: r -> assoc x (variables sc) <> None -> exists v m', m = (x, v) :: m').
  Proof.
    induction xs as [|x xs [m [Hm [Hv [Hk _]]]]].
    - exists []. simpl. repeat split; auto; try tauto; try discriminate.
    - cbn [resolve_variables]. destruct (variable_node sc pos x) as [r|] eqn:E.
      + destruct (proj1 Hps _ _ E) as [v [-> _]]. rewrite Hm. exists ((x, v) :: m). simpl.
        split; [reflexivity|]. split; [constructor; auto|]. split.
        * intro y. rewrite Hk. apply variable_node_assoc in E.
          split; [intros [<-|[? ?]]; auto|intros [[<-|?] ?]; auto].
        * intros x0 r E0 _. inversion E0; subst. eauto.
      + exists m. split; [assumption|]. split; [assumption|].
        assert (F : assoc x (variables sc) = None).
        { unfold variable_node in E. destruct (assoc x (variables sc)) as [[]|]; congruence. }
        split; [|intros x0 r E0 G; inversion E0; subst; congruence].
        intro y. rewrite Hk. simpl. split; [intros [? ?]; auto|]. intros [[<-|?] ?]; [congruence|auto].
  Qed.

  Notation steps := (clos_refl_trans node unf).
  Lemma steps_inv n n' : steps n n' -> plain n -> uncaptured sc [] n -> plain n' /\ uncaptured sc [] n'.
  Proof.
    induction 1 as [x y H|x|x y z H1 IH1 H2 IH2]; intros Hp Hc; auto.
    - split; [eapply unf_plain|eapply unf_uncaptured]; eauto.
    - destruct (IH1 Hp Hc). auto.
  Qed.
  Lemma eval_variables_steps m : Forall (fun kv => variable_node sc pos (fst kv) = Some (Ok (snd kv))) m ->
    forall n, plain n -> steps n (eval_variables m n).
  Proof.
    induction 1 as [|[x v] m Hx Hm IH]; intros n Hp; [apply rt_refl|]. cbn [eval_variables].
    assert (U : unf n (replace_variable x v n)) by (apply replace_unf; assumption).
    eapply rt_trans; [apply rt_step; exact U|]. apply IH. eapply unf_plain; eauto.
  Qed.
  Lemma eval_functions_steps fs : forall n n', plain n -> uncaptured sc [] n ->
    eval_functions sc fs n = Ok n' -> steps n n'.
  Proof.
    induction fs as [|f fs IH]; intros n n' Hp Hc H; cbn [eval_functions] in H.
    - inversion H. apply rt_refl.
    - destruct (assoc f (functions sc)) as [fn|] eqn:E; [|auto].
      apply bind_ok_inv in H as [n1 [H1 H]].
      assert (U : unf n n1) by (eapply call_function_unf; eauto).
      eapply rt_trans; [apply rt_step; exact U|]. apply IH; [eapply unf_plain|eapply unf_uncaptured|]; eauto.
  Qed.
  Lemma eval_round_steps vs fs n n' : plain n -> uncaptured sc [] n ->
    eval_round sc pos vs fs n = Ok n' -> steps n n'.
  Proof.
    intros Hp Hc H. unfold eval_round in H. destruct (resolve_variables_ok vs) as [m [Hm [Hv _]]]. rewrite Hm in H.
    assert (S : steps n (eval_variables m n)) by (apply eval_variables_steps; assumption).
    destruct (steps_inv _ _ S Hp Hc). eapply rt_trans; [exact S|]. eapply eval_functions_steps; eauto.
  Qed.
  Lemma eval_loop_steps fuel ord : forall k last n n', plain n -> uncaptured sc [] n ->
    eval_loop fuel ord k sc pos last n = Ok n' -> steps n n'.
  Proof.
    induction fuel as [|fuel IH]; intros k last n n' Hp Hc H; [discriminate|]. cbn [eval_loop] in H.
    destruct (refs_is_empty _ || refs_eqb _ _).
    - inversion H. apply rt_refl.
    - apply bind_ok_inv in H as [n1 [H1 H]]. apply eval_round_steps in H1; auto.
      destruct (steps_inv _ _ H1 Hp Hc). eapply rt_trans; [exact H1|]. eapply IH; eauto.
  Qed.
  Lemma steps_expands n n' m : steps n n' -> (expands sc pos n m <-> expands sc pos n' m).
  Proof.
    induction 1 as [x y H|x|x y z H1 IH1 H2 IH2].
    - split; intro D; [eapply unf_forward|eapply unf_back]; eauto.
    - tauto.
    - tauto.
  Qed.
  Lemma nothing_known_expands n : plain n -> nothing_known sc n -> expands sc pos n n.
  Proof.
    induction n using node_induction; intros Hp Hk; try contradiction; try (apply x_leaf; reflexivity).
    - destruct Hk as [Hk1 Hk2]. apply x_other_call.
      + apply Hk2. rewrite calls_call. left. reflexivity.
      + apply plain_call in Hp. rewrite refs_call in Hk1. rewrite calls_call in Hk2.
        induction H as [|a0 l Ha Hl IH]; constructor; apply Forall_cons_iff in Hp as [Hp1 Hp2]; simpl in Hk1, Hk2.
        * apply Ha; [assumption|]. split; intros y Hy; [apply Hk1|apply Hk2; right]; apply in_or_app; auto.
        * apply IH; [assumption| |]; intros y Hy; [apply Hk1; apply in_or_app; auto|].
          apply Hk2. destruct Hy as [|Hy]; [left; assumption|right; apply in_or_app; auto].
    - destruct Hp, Hk as [Hk1 Hk2]. cbn [ref_names call_names] in *.
      apply x_infix; [apply IHn1|apply IHn2]; auto; split; intros y Hy; [apply Hk1|apply Hk2|apply Hk1|apply Hk2]; apply in_or_app; auto.
    - apply x_name. apply Hk. left. reflexivity.
  Qed.

  (** Whatever evaluation returns has the meaning the formula had. *)
  Lemma eval_meaning fuel ord n n' m : plain n -> uncaptured sc [] n ->
    ast_eval fuel ord sc pos n = Ok n' -> (expands sc pos n m <-> expands sc pos n' m).
  Proof. intros Hp Hc H. apply steps_expands. eapply eval_loop_steps; eauto. Qed.
  Lemma eval_sound fuel ord n n' : plain n -> uncaptured sc [] n ->
    ast_eval fuel ord sc pos n = Ok n' -> nothing_known sc n' -> expands sc pos n n'.
  Proof.
    intros Hp Hc H Hk. pose proof (eval_loop_steps _ _ _ _ _ _ Hp Hc H) as S.
    apply (steps_expands _ _ n' S). apply nothing_known_expands; [|assumption]. apply (steps_inv _ _ S Hp Hc).
  Qed.
End Steps.
