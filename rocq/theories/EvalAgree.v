(** * EvalAgree: evaluating a formula only looks at the definitions that it can reach. *)
From Coq Require Import Permutation.
From Verif Require Import Base BaseProofs Csvp Ast AstProofs Eval EvalSpec EvalProofs EvalRounds.

Section Agree.
  Variables (kv kf : str -> Prop) (sc sc' : scope) (pos : option address).
  Hypothesis Hv : forall x, kv x -> assoc x (variables sc') = assoc x (variables sc).
  Hypothesis Hf : forall f, kf f -> assoc f (functions sc') = assoc f (functions sc).
  (** all names of a formula are among the names considered *)
  Definition within (n : node) : Prop := (forall x, In x (ref_names n) -> kv x) /\ (forall f, In f (call_names n) -> kf f).
  Hypothesis Cv : forall x v, kv x -> variable_node sc pos x = Some (Ok v) -> within v.
  (** the same for a function, except for its parameters *)
  Definition within_function (g : node) : Prop :=
    match g with
    | NFn ps body _ => (forall x, In x (ref_names body) -> In x ps \/ kv x) /\ (forall f, In f (call_names body) -> kf f)
    | _ => within g
    end.
  Hypothesis Cf : forall f g, kf f -> assoc f (functions sc) = Some g -> within_function g.

  Lemma within_call args f : within (NCall args f) <-> kf f /\ Forall within args.
  Proof.
    unfold within. rewrite refs_call, calls_call. split.
    - intros [H1 H2]. split; [apply H2; left; reflexivity|]. apply Forall_forall. intros a Ha. split; intros y Hy.
      + apply H1. apply in_flat_map. eauto.
      + apply H2. right. apply in_flat_map. eauto.
    - intros [H1 H2]. rewrite Forall_forall in H2. split; intros y Hy.
      + apply in_flat_map in Hy as [a [Ha Hy]]. apply (H2 a Ha). exact Hy.
      + destruct Hy as [<-|Hy]; [exact H1|]. apply in_flat_map in Hy as [a [Ha Hy]]. apply (H2 a Ha). exact Hy.
  Qed.
  Lemma within_infix l op r : within (NInfix l op r) <-> within l /\ within r.
  Proof.
    unfold within. cbn [ref_names call_names]. split.
    - intros [H1 H2]. repeat split; intros; first [apply H1|apply H2]; apply in_or_app; auto.
    - intros [[H1 H2] [H3 H4]]. split; intros y Hy; apply in_app_or in Hy as [Hy|Hy]; auto.
  Qed.
  Lemma has_key_assoc {A} x (l : list (str * A)) : has_key x l = match assoc x l with Some _ => true | None => false end.
  Proof. reflexivity. Qed.

  Lemma extract_agree n : within n -> forall acc, extract_dfs sc' n acc = extract_dfs sc n acc.
  Proof.
    induction n using node_induction; intros W acc; try reflexivity.
    - cbn [extract_dfs]. apply IHn. exact W.
    - apply within_call in W as [Wf Wa]. cbn [extract_dfs]. rewrite !has_key_assoc, (Hf _ Wf).
      generalize (if match assoc n (functions sc) with Some _ => true | None => false end
        then {| ref_functions := set_insert n (ref_functions acc); ref_variables := ref_variables acc |} else acc).
      clear acc. induction H as [|x l Hx Hl IH]; intro acc; [reflexivity|].
      apply Forall_cons_iff in Wa as [Wx Wa]. rewrite (Hx Wx). apply IH. exact Wa.
    - apply within_infix in W as [W1 W2]. cbn [extract_dfs]. rewrite IHn1, IHn2 by assumption. reflexivity.
    - cbn [extract_dfs]. rewrite !has_key_assoc, (Hv r); [reflexivity|]. apply W. left. reflexivity.
    - destruct v; try reflexivity. cbn [extract_dfs]. apply (H n0 eq_refl). exact W.
  Qed.

  Lemma within_subst s n : within n -> (forall p a, In (p, a) s -> within a) -> within (subst s n).
  Proof.
    intros [W1 W2] Ws. split; intros y Hy.
    - apply refs_subst in Hy as [[Hy _]|[p [a [H1 [_ H2]]]]]; [auto|]. apply (Ws _ _ H1). exact H2.
    - apply calls_subst in Hy as [Hy|[p [a [H1 [_ H2]]]]]; [auto|]. apply (Ws _ _ H1). exact H2.
  Qed.
  Lemma within_replace x v n : within n -> within v -> within (replace_variable x v n).
  Proof.
    intros W Wv. rewrite replace_is_subst. apply within_subst; [exact W|]. intros p a [H|[]]. injection H as <- <-. exact Wv.
  Qed.
  Lemma within_params ps : forall args body, length ps = length args -> Forall within args ->
    (forall x, In x (ref_names body) -> In x ps \/ kv x) -> (forall f, In f (call_names body) -> kf f) -> within (replace_params ps args body).
  Proof.
    induction ps as [|p ps IH]; intros [|a args] body Hl Wa W1 W2; cbn [length] in Hl; try lia; cbn [replace_params].
    - split; [|exact W2]. intros x Hx. destruct (W1 x Hx) as [[]|K]; exact K.
    - apply Forall_cons_iff in Wa as [Wa Was]. apply IH; [lia|exact Was| |]; rewrite replace_is_subst; intros x Hx.
      + apply refs_subst in Hx as [[Hx Hn]|[q [b [[H1|[]] [_ H2]]]]].
        * destruct (W1 x Hx) as [[<-|K]|K]; auto. exfalso. cbn [assoc] in Hn. destruct (str_eqb_spec p p); [discriminate Hn|congruence].
        * injection H1 as <- <-. right. apply Wa. exact H2.
      + apply calls_subst in Hx as [Hx|[q [b [[H1|[]] [_ H2]]]]]; [auto|]. injection H1 as <- <-. apply Wa. exact H2.
  Qed.
  Lemma within_called f fn n n' : within n -> within_function fn -> call_function f fn n = Ok n' -> within n'.
  Proof.
    intros W Wfn. revert n' W. induction n using node_induction; intros n' W R; try (injection R as <-; exact W).
    - pose proof W as W'. apply within_call in W as [Wf Wa].
      destruct (str_eqb n f) eqn:E.
      + cbn [call_function] in R. rewrite E in R. destruct fn; try (injection R as <-; exact Wfn).
        destruct (_ =? _) eqn:El; [|discriminate]. injection R as <-. apply Nat.eqb_eq in El. destruct Wfn. apply within_params; auto.
      + rewrite call_function_other in R by exact E. apply bind_ok_inv in R as [a' [R1 R2]]. injection R2 as <-.
        apply within_call. split; [exact Wf|]. apply call_args_inv in R1.
        clear W'. induction R1 as [|x y l l' Hx Hl IH]; [constructor|].
        apply Forall_cons_iff in H as [Hx1 Hl1]. apply Forall_cons_iff in Wa as [Wx Wl].
        constructor; [apply Hx1; assumption|apply IH; assumption].
    - apply within_infix in W as [W1 W2]. cbn [call_function] in R.
      apply bind_ok_inv in R as [l' [R1 R]]. apply bind_ok_inv in R as [r' [R2 R]]. injection R as <-.
      apply within_infix. split; [apply IHn1|apply IHn2]; assumption.
    - destruct v; try (injection R as <-; exact W). cbn [call_function] in R. apply bind_ok_inv in R as [a' [R1 R]].
      injection R as <-. exact (H n0 eq_refl a' W R1).
  Qed.

  Lemma variable_node_agree x : kv x -> variable_node sc' pos x = variable_node sc pos x.
  Proof. intro K. unfold variable_node. rewrite (Hv x K). reflexivity. Qed.
  Lemma resolve_agree xs : (forall x, In x xs -> kv x) -> resolve_variables sc' pos xs = resolve_variables sc pos xs.
  Proof.
    induction xs as [|x xs IH]; intro K; [reflexivity|]. cbn [resolve_variables].
    rewrite variable_node_agree by (apply K; left; reflexivity). rewrite IH by (intros; apply K; right; assumption). reflexivity.
  Qed.
  Lemma resolve_within xs : (forall x, In x xs -> kv x) -> forall m, resolve_variables sc pos xs = Ok m -> Forall (fun p => within (snd p)) m.
  Proof.
    induction xs as [|x xs IH]; intros K m R; [injection R as <-; constructor|]. cbn [resolve_variables] in R.
    assert (Kx : kv x) by (apply K; left; reflexivity).
    assert (K' : forall y, In y xs -> kv y) by (intros; apply K; right; assumption).
    destruct (variable_node sc pos x) as [[v| | |]|] eqn:Ev; try discriminate R.
    - apply bind_ok_inv in R as [m' [R1 R2]]. injection R2 as <-. constructor; [exact (Cv x v Kx Ev)|apply IH; assumption].
    - apply IH; assumption.
  Qed.
  Lemma within_variables m : Forall (fun p => within (snd p)) m -> forall n, within n -> within (eval_variables m n).
  Proof.
    induction 1 as [|[x v] m Hx Hm IH]; intros n W; [exact W|]. cbn [eval_variables]. apply IH. apply within_replace; assumption.
  Qed.
  Lemma functions_agree fs : (forall f, In f fs -> kf f) -> forall n, within n ->
    eval_functions sc' fs n = eval_functions sc fs n /\ forall n', eval_functions sc fs n = Ok n' -> within n'.
  Proof.
    induction fs as [|f fs IH]; intros K n W; [split; [reflexivity|]; intros n' R; injection R as <-; exact W|].
    assert (Kf : kf f) by (apply K; left; reflexivity).
    assert (K' : forall g, In g fs -> kf g) by (intros; apply K; right; assumption).
    cbn [eval_functions]. rewrite (Hf f Kf). destruct (assoc f (functions sc)) as [fn|] eqn:Ef; [|apply IH; assumption].
    destruct (call_function f fn n) as [n1| | |] eqn:R; cbn [bind]; try (split; [reflexivity|intros ? X; discriminate X]).
    apply IH; [exact K'|]. eapply within_called; [exact W| |exact R]. exact (Cf f fn Kf Ef).
  Qed.

  Theorem eval_agree ord : is_order ord -> forall fuel k last n, within n ->
    eval_loop fuel ord k sc' pos last n = eval_loop fuel ord k sc pos last n.
  Proof.
    intro Hord. induction fuel as [|fuel IH]; intros k last n W; [reflexivity|]. cbn [eval_loop].
    assert (X : extract_references sc' n = extract_references sc n) by (apply extract_agree; exact W). rewrite X.
    destruct (_ || _); [reflexivity|].
    set (vs := ord (2 * k) _). set (fs := ord (2 * k + 1) _).
    assert (Kvs : forall x, In x vs -> kv x).
    { intros x Hx. unfold vs in Hx. eapply Permutation_in in Hx; [|apply Hord]. apply refs_vars_spec in Hx as [Hx _]. apply W. exact Hx. }
    assert (Kfs : forall x, In x fs -> kf x).
    { intros x Hx. unfold fs in Hx. eapply Permutation_in in Hx; [|apply Hord]. apply refs_fns_spec in Hx as [Hx _]. apply W. exact Hx. }
    unfold eval_round. rewrite resolve_agree by exact Kvs.
    destruct (resolve_variables sc pos vs) as [m| | |] eqn:R; try reflexivity. cbn [bind].
    pose proof (within_variables m (resolve_within _ Kvs m R) n W) as W1.
    destruct (functions_agree fs Kfs _ W1) as [E1 E2]. rewrite E1.
    destruct (eval_functions sc fs (eval_variables m n)) as [n'| | |] eqn:R2; try reflexivity. cbn [bind].
    apply IH. apply E2. reflexivity.
  Qed.
End Agree.
