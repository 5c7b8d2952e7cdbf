(** * ParamProofs: the names of the parameters of a function do not matter. *)
From Coq Require Import Permutation.
From Verif Require Import Base BaseProofs Csvp Ast AstProofs Eval EvalSpec EvalProofs EvalRounds EvalAgree RenameSpec RenameProofs.

(** the renaming that exchanges two names of values *)
Definition swap (a b x : str) : str := if str_eqb x a then b else if str_eqb x b then a else x.
Lemma swap_back a b x : swap a b (swap a b x) = x.
Proof.
  unfold swap. destruct (str_eqb_spec x a) as [->|N1].
  - destruct (str_eqb_spec b a) as [->|N]; [reflexivity|]. destruct (str_eqb_spec b b); congruence.
  - destruct (str_eqb_spec x b) as [->|N2]; [destruct (str_eqb_spec a a); congruence|]. destruct (str_eqb_spec x a); [congruence|]. destruct (str_eqb_spec x b); congruence.
Qed.
Lemma swap_other a b x : x <> a -> x <> b -> swap a b x = x.
Proof. intros A B. unfold swap. destruct (str_eqb_spec x a); [congruence|]. destruct (str_eqb_spec x b); congruence. Qed.
Definition swaps (a b : str) : renaming := {| rn_value := swap a b; rn_fn := fun f => f |}.
(** a formula that mentions neither name stays; [plain] formulas hold no definitions *)
Lemma rename_absent a b : forall n, plain n -> ~ In a (ref_names n) -> ~ In b (ref_names n) -> rename (swaps a b) n = n.
Proof.
  apply (node_induction (fun n => plain n -> ~ In a (ref_names n) -> ~ In b (ref_names n) -> rename (swaps a b) n = n)); intros; try reflexivity.
  - destruct H0.
  - cbn [rename swaps rn_fn]. f_equal. rewrite refs_call in *. apply plain_call in H0. rewrite <- (map_id a0) at 2. apply map_ext_in. intros x Hx. rewrite Forall_forall in H, H0.
    apply H; auto; intro I; [apply H1|apply H2]; apply in_flat_map; eauto.
  - cbn [rename]. cbn [ref_names] in *. destruct H1 as [P1 P2]. rewrite H, H0; auto; intro I; [apply H2|apply H3|apply H2|apply H3]; apply in_or_app; auto.
  - cbn [rename swaps rn_value]. rewrite swap_other; [reflexivity| |]; intros <-; [apply H0|apply H1]; left; reflexivity.
  - destruct H0.
Qed.

Lemma plain_replace x v n : plain n -> plain v -> plain (replace_variable x v n).
Proof. intros P V. rewrite replace_is_subst. apply plain_subst; auto. intros q y [H|[]]. injection H as <- <-. exact V. Qed.
Lemma plain_params ps : forall args body, Forall plain args -> plain body -> plain (replace_params ps args body).
Proof. induction ps as [|p l IH]; intros [|x args] body P Pb; cbn [replace_params]; auto. apply Forall_cons_iff in P as [P1 P2]. apply IH; auto. apply plain_replace; assumption. Qed.
Lemma plain_called f ps body name : plain body -> forall n n', plain n -> call_function f (NFn ps body name) n = Ok n' -> plain n'.
Proof.
  intro Pb. induction n using node_induction; intros n' P R; try (injection R as <-; exact P).
  - apply plain_call in P. destruct (str_eqb n f) eqn:E.
    + cbn [call_function] in R. rewrite E in R. destruct (_ =? _); [|discriminate R]. injection R as <-. apply plain_params; assumption.
    + rewrite call_function_other in R by exact E. apply bind_ok_inv in R as [a' [R1 R2]]. injection R2 as <-. apply plain_call. apply call_args_inv in R1.
      induction R1 as [|x y l l' Hx Hl IH]; [constructor|]. apply Forall_cons_iff in H as [H1 H2]. apply Forall_cons_iff in P as [P1 P2]. constructor; auto.
  - destruct P as [P1 P2]. cbn [call_function] in R. apply bind_ok_inv in R as [l' [R1 R]]. apply bind_ok_inv in R as [r' [R2 R]]. injection R as <-. split; auto.
  - destruct P.
Qed.

Section Params.
  Variables (kv kf : str -> Prop) (sc sc' : scope) (pos : option address) (f0 a b : str) (ps : list str) (body : node).
  Let m := swaps a b.
  Let g := NFn ps body f0.
  Let g' := NFn (map (swap a b) ps) (rename m body) f0.
  Hypothesis Ha : ~ kv a.
  Hypothesis Hb : ~ kv b.
  Hypothesis Hv : forall x, assoc x (variables sc') = assoc x (variables sc).
  Hypothesis Hg : assoc f0 (functions sc) = Some g.
  Hypothesis Hg' : assoc f0 (functions sc') = Some g'.
  Hypothesis Hf : forall f, f <> f0 -> assoc f (functions sc') = assoc f (functions sc).
  Hypothesis Cv : forall x v, kv x -> variable_node sc pos x = Some (Ok v) -> within kv kf v.
  Hypothesis Cf : forall f h, kf f -> assoc f (functions sc) = Some h -> within_function kv kf h.
  Hypothesis Pa : In a ps.
  Hypothesis Nb : ~ In b ps.
  Hypothesis Rb : ~ In b (ref_names body).
  Hypothesis Pv : forall x v, variable_node sc pos x = Some (Ok v) -> plain v.
  Hypothesis Fn : forall f h, assoc f (functions sc) = Some h -> exists ps body, h = NFn ps body f /\ plain body.
  (** the error names the function with its parameters *)
  Definition other_params (e : eval_error) : eval_error :=
    match ee_function e with
    | NFn _ _ f => if str_eqb f f0 then {| ee_function := g'; ee_expected := ee_expected e; ee_received := ee_received e |} else e
    | _ => e
    end.
  Lemma extract_params : forall n acc, extract_dfs sc' n acc = extract_dfs sc n acc.
  Proof.
    assert (Kf : forall f, has_key f (functions sc') = has_key f (functions sc)) by (intro f; unfold has_key; destruct (str_eqb_spec f f0) as [->|N]; [rewrite Hg, Hg'; reflexivity|rewrite Hf by exact N; reflexivity]).
    apply (node_induction (fun n => forall acc, extract_dfs sc' n acc = extract_dfs sc n acc)); intros; cbn [extract_dfs]; try reflexivity; auto.
    - rewrite Kf. generalize (if has_key n (functions sc) then {| ref_functions := set_insert n (ref_functions acc); ref_variables := ref_variables acc |} else acc).
      clear acc. match goal with H : Forall _ _ |- _ => induction H as [|x xs Hx Hxs IH] end; intro acc; cbn; [reflexivity|]. rewrite Hx. apply IH.
    - congruence.
    - unfold has_key. rewrite Hv. reflexivity.
    - destruct v; auto.
  Qed.
  Lemma swapped_names ps0 : map (rn_value m) ps0 = map (swap a b) ps0.
  Proof. reflexivity. Qed.
  (** both definitions give the same when called *)
  Lemma params_swapped args : length args = length ps -> Forall (within kv kf) args -> Forall plain args -> plain body -> within_function kv kf g ->
    replace_params (map (swap a b) ps) args (rename m body) = replace_params ps args body.
  Proof.
    intros L W P Pb Wg. assert (Wr : within kv kf (replace_params ps args body)) by (destruct Wg; apply within_params; auto).
    assert (Pr : plain (replace_params ps args body)).
    { apply plain_params; assumption. }
    assert (A : map (rename m) args = args).
    { rewrite <- (map_id args) at 2. apply map_ext_in. intros x Hx. rewrite Forall_forall in W, P. apply rename_absent; [auto| |]; intro I; destruct (W x Hx) as [X _]; [apply Ha|apply Hb]; apply X; exact I. }
    pose proof (params_rename m (swap a b) (swap_back a b) ps args body) as R. rewrite A in R. change (map (rn_value m) ps) with (map (swap a b) ps) in R. rewrite R.
    apply rename_absent; [exact Pr| |]; intro I; destruct Wr as [X _]; [apply Ha|apply Hb]; apply X; exact I.
  Qed.
  Lemma call_params : plain body -> within_function kv kf g -> forall n, plain n -> within kv kf n -> call_function f0 g' n = rmap (fun x => x) other_params (call_function f0 g n).
  Proof.
    intros Pb Wg. induction n using node_induction; intros P W; try reflexivity.
    - apply within_call in W as [Wf Wa]. apply plain_call in P. cbn [call_function]. destruct (str_eqb n f0).
      + unfold g, g' at 1. rewrite map_length. destruct (Nat.eqb_spec (length a0) (length ps)) as [L|L]; cbn [rmap].
        * rewrite params_swapped; auto.
        * unfold other_params. cbn [ee_function g]. destruct (str_eqb_spec f0 f0); [reflexivity|congruence].
      + match goal with |- bind (?x1 _) _ = rmap _ _ (bind (?x2 _) _) => assert (X : x1 a0 = rmap (fun x => x) other_params (x2 a0)) end.
        { clear n Wf. induction H as [|x xs Hx Hxs IH]; [reflexivity|]. apply Forall_cons_iff in Wa as [W1 W2]. apply Forall_cons_iff in P as [P1 P2]. rewrite (Hx P1 W1). destruct (call_function f0 g x); cbn [rmap bind]; try reflexivity. rewrite (IH P2 W2). match goal with |- context [rmap _ _ ?t] => destruct t end; reflexivity. }
        rewrite X. match goal with |- context [rmap _ _ ?t] => destruct t end; reflexivity.
    - apply within_infix in W as [W1 W2]. destruct P as [P1 P2]. cbn [call_function]. rewrite (IHn1 P1 W1). destruct (call_function f0 g n1); cbn [rmap bind]; try reflexivity. rewrite (IHn2 P2 W2). destruct (call_function f0 g n2); reflexivity.
    - destruct P.
  Qed.
  Lemma functions_params : forall fs n, (forall f, In f fs -> kf f) -> plain n -> within kv kf n ->
    eval_functions sc' fs n = rmap (fun x => x) other_params (eval_functions sc fs n) /\ forall n', eval_functions sc fs n = Ok n' -> plain n' /\ within kv kf n'.
  Proof.
    induction fs as [|f fs IH]; intros n K P W; [split; [reflexivity|]; intros n' R; injection R as <-; auto|].
    assert (Kf : kf f) by (apply K; left; reflexivity). assert (K' : forall h, In h fs -> kf h) by (intros; apply K; right; assumption).
    cbn [eval_functions]. destruct (str_eqb_spec f f0) as [->|Ne].
    - rewrite Hg, Hg'. destruct (Fn _ _ Hg) as [ps0 [body0 [E0 Pb]]]. unfold g in E0. injection E0 as <- <-. pose proof (Cf f0 g Kf Hg) as Wg. rewrite (call_params Pb Wg n P W).
      destruct (call_function f0 g n) as [n1| | |] eqn:R; cbn [rmap bind]; try (split; [reflexivity|intros ? X; discriminate X]). apply IH; [exact K'| |].
      + eapply plain_called; [exact Pb|exact P|exact R].
      + eapply within_called; [exact W|exact Wg|exact R].
    - rewrite (Hf f Ne). destruct (assoc f (functions sc)) as [fn|] eqn:Ef; [|apply IH; assumption]. destruct (Fn _ _ Ef) as [ps0 [body0 [-> Pb]]].
      destruct (call_function f (NFn ps0 body0 f) n) as [n1|e| |] eqn:R; cbn [rmap bind].
      + apply IH; [exact K'|eapply plain_called; [exact Pb|exact P|exact R]|]. eapply within_called; [exact W|exact (Cf f _ Kf Ef)|exact R].
      + split; [|intros ? X; discriminate X]. f_equal. assert (Ee : ee_function e = NFn ps0 body0 f).
        { clear -R. revert R. induction n using node_induction; intro R; try discriminate R.
          - destruct (str_eqb n f) eqn:E; [cbn [call_function] in R; rewrite E in R; destruct (_ =? _); [discriminate R|injection R as <-; reflexivity]|].
            rewrite call_function_other in R by exact E. match type of R with bind ?t _ = _ => assert (X : t = Err e) by (destruct t; cbn [bind] in R; congruence) end. clear R E.
            induction H as [|x xs Hx Hxs IH]; [discriminate X|]. destruct (call_function f (NFn ps0 body0 f) x) as [y|e1| |] eqn:E1; cbn [call_args] in X; rewrite E1 in X; cbn [bind] in X; try discriminate X.
            + apply IH. destruct (call_args f (NFn ps0 body0 f) xs) eqn:Et; cbn [bind] in X; try discriminate X; congruence.
            + apply Hx. congruence.
          - cbn [call_function] in R. destruct (call_function f (NFn ps0 body0 f) n1) as [y|e1| |] eqn:E1; cbn [bind] in R; try discriminate R; [|apply IHn1; congruence].
            destruct (call_function f (NFn ps0 body0 f) n2) as [y2|e1| |] eqn:E2; cbn [bind] in R; try discriminate R. apply IHn2. congruence.
          - destruct v; try discriminate R. cbn [call_function] in R. destruct (call_function f (NFn ps0 body0 f) n0) as [y|e1| |] eqn:E1; cbn [bind] in R; try discriminate R. apply (H n0 eq_refl). congruence. }
        unfold other_params. rewrite Ee. destruct (str_eqb_spec f f0); [congruence|reflexivity].
      + split; [reflexivity|intros ? X; discriminate X].
      + split; [reflexivity|intros ? X; discriminate X].
  Qed.
  Lemma resolve_plain xs : forall l, resolve_variables sc pos xs = Ok l -> Forall (fun p => plain (snd p)) l.
  Proof.
    induction xs as [|x xs IH]; intros l R; [injection R as <-; constructor|]. cbn [resolve_variables] in R. destruct (variable_node sc pos x) as [[v| | |]|] eqn:Ev; try discriminate R.
    - apply bind_ok_inv in R as [l' [R1 R2]]. injection R2 as <-. constructor; [exact (Pv x v Ev)|apply IH; assumption].
    - apply IH. exact R.
  Qed.
  Lemma resolve_params xs : resolve_variables sc' pos xs = resolve_variables sc pos xs.
  Proof. induction xs as [|x xs IH]; [reflexivity|]. cbn [resolve_variables]. unfold variable_node. rewrite Hv, IH. reflexivity. Qed.
  Theorem loop_params ord : is_order ord -> forall fuel k last n, plain n -> within kv kf n ->
    eval_loop fuel ord k sc' pos last n = rmap (fun x => x) other_params (eval_loop fuel ord k sc pos last n).
  Proof.
    intro Hord. induction fuel as [|fuel IH]; intros k last n P W; [reflexivity|]. cbn [eval_loop]. unfold extract_references. rewrite extract_params.
    destruct (_ || _); [reflexivity|]. set (refs := extract_dfs sc n no_references). change refs with (extract_references sc n). clear refs.
    set (vs := ord (2 * k) _). set (fs := ord (2 * k + 1) _).
    assert (Kvs : forall x, In x vs -> kv x).
    { intros x Hx. unfold vs in Hx. eapply Permutation_in in Hx; [|apply Hord]. apply refs_vars_spec in Hx as [Hx _]. apply W. exact Hx. }
    assert (Kfs : forall x, In x fs -> kf x).
    { intros x Hx. unfold fs in Hx. eapply Permutation_in in Hx; [|apply Hord]. apply refs_fns_spec in Hx as [Hx _]. apply W. exact Hx. }
    unfold eval_round. rewrite resolve_params. destruct (resolve_variables sc pos vs) as [l| | |] eqn:R; cbn [bind rmap]; try reflexivity.
    - pose proof (within_variables kv kf l (resolve_within kv kf sc pos Cv vs Kvs l R) n W) as W1.
      assert (P1 : plain (eval_variables l n)).
      { pose proof (resolve_plain _ _ R) as Q. clear -Q P. revert n P. induction Q as [|[x v] l Q _ IH]; intros n P; [exact P|]. cbn [eval_variables]. apply IH. apply plain_replace; assumption. }
      destruct (functions_params fs _ Kfs P1 W1) as [E1 E2]. rewrite E1. destruct (eval_functions sc fs (eval_variables l n)) as [n'| | |]; cbn [rmap bind]; try reflexivity.
      destruct (E2 n' eq_refl) as [P2 W2]. apply IH; assumption.
    - exfalso. clear -R. revert R. induction vs as [|x xs IH]; intro R; [discriminate R|]. cbn [resolve_variables] in R. destruct (variable_node sc pos x) as [[v| | |]|]; try discriminate R; [|apply IH; exact R].
      destruct (resolve_variables sc pos xs); cbn [bind] in R; try discriminate R. apply IH. exact R.
  Qed.
End Params.
