(** * Properties C16-C21: evaluation of formulas. *)
From Coq Require Import Permutation.
From Verif Require Import Base BaseProofs Csvp Ast AstProofs AstLexer AstParser Eval EvalSpec
  EvalProofs EvalRounds EvalComplete EvalTotal ParsedPlain PropFormula.

(** ** What the theorems assume about scopes holds of every parsed program *)
Theorem C17_parsed_formulas_are_plain : forall o sg s n, ast_parse o sg s = Ok n -> plain n.
Proof. exact parsed_plain. Qed.
Print Assumptions C17_parsed_formulas_are_plain.
Theorem C17_parsed_scopes_are_plain : forall o s sc req pos,
  code_section_parse o s = Ok (sc, req) -> plain_scope sc pos.
Proof. intros o s sc req pos H. apply plain_defs_scope. eapply section_plain; eauto. Qed.
Print Assumptions C17_parsed_scopes_are_plain.

(** ** An example program used below *)
Definition ex_section : str := lit "tax := 0.1
price := 100
vat_of_price := vat(price)
fn half(x) x / 2
fn vat(amount) amount * tax
fn total(count, each) count * each + vat(count * each)
".
Definition ex_scope : scope :=
  Eval vm_compute in match code_section_parse ex_oracle ex_section with Ok (sc, _) => sc | _ => empty_scope end.
Definition ex_formula (s : str) : node := match ast_parse ex_oracle false s with Ok n => n | _ => NBool false end.
Definition ex_rank_v (x : str) : nat := if str_eqb x (lit "vat_of_price") then 2 else 0.
Definition ex_rank_f (f : str) : nat := if str_eqb f (lit "total") then 2 else if str_eqb f (lit "vat") then 1 else 0.
Definition ex_bound (f : str) : nat := Nat.min 1 (ex_rank_f f).
Lemma ex_fn f g : assoc f (functions ex_scope) = Some g -> In (f, g) (functions ex_scope).
Proof. apply assoc_In. Qed.
Lemma ex_var x r : variable_node ex_scope None x = Some r ->
  In (x, r) [(lit "tax", Ok (NFloat false None (lit "0.1"))); (lit "price", Ok (NInt false None 100));
             (lit "vat_of_price", Ok (NCall [NRef (lit "price")] (lit "vat")))].
Proof.
  unfold variable_node. destruct (assoc x (variables ex_scope)) as [v|] eqn:E; [|discriminate].
  apply assoc_In in E. vm_compute in E. intro H.
  repeat (destruct E as [E|E]; [inversion E; subst; clear E; inversion H; subst; simpl; tauto|]). destruct E.
Qed.
Ltac names H := repeat (destruct H as [H|H]; [try discriminate H; try subst|]); try (destruct H; fail).
Lemma ex_plain : plain_scope ex_scope None.
Proof. apply (C17_parsed_scopes_are_plain ex_oracle ex_section _ []). vm_compute. reflexivity. Qed.
Lemma ex_later p : later_param ex_scope p -> p = lit "each".
Proof.
  intros [f [ps [body [name [H Hp]]]]]. apply ex_fn in H. vm_compute in H.
  repeat (destruct H as [H|H]; [inversion H; subst; clear H; vm_compute in Hp; names Hp; reflexivity|]). destruct H.
Qed.
Lemma ex_hygienic : hygienic ex_scope None.
Proof.
  split.
  - intros x v H. apply ex_var in H. simpl in H. intros y Hy _ L. apply ex_later in L. subst y.
    repeat (destruct H as [H|H]; [inversion H; subst; clear H; vm_compute in Hy; names Hy|]). destruct H.
  - intros f ps body name H y Hy Hn L. apply ex_later in L. subst y. apply ex_fn in H. vm_compute in H.
    repeat (destruct H as [H|H]; [inversion H; subst; clear H; vm_compute in Hy, Hn; names Hy; tauto|]). destruct H.
Qed.
Lemma ex_ranked : ranked ex_scope None ex_rank_v ex_rank_f.
Proof.
  split.
  - intros x v H. apply ex_var in H. simpl in H. split.
    + intros y Hy _ _.
      repeat (destruct H as [H|H]; [inversion H; subst; clear H; vm_compute in Hy; names Hy; vm_compute; lia|]). destruct H.
    + intros y Hy _.
      repeat (destruct H as [H|H]; [inversion H; subst; clear H; vm_compute in Hy; names Hy; vm_compute; lia|]). destruct H.
  - intros f ps body name H. apply ex_fn in H. vm_compute in H. split.
    + intros y Hy Hn _.
      repeat (destruct H as [H|H]; [inversion H; subst; clear H; vm_compute in Hy; names Hy; try (vm_compute; lia); vm_compute in Hn; tauto|]). destruct H.
    + intros y Hy Hn.
      repeat (destruct H as [H|H]; [inversion H; subst; clear H; vm_compute in Hy; names Hy; try (vm_compute; lia)|]). destruct H.
Qed.
Lemma ex_arity : arity_scope ex_scope None.
Proof.
  split.
  - intros x v H. apply ex_var in H. simpl in H.
    repeat (destruct H as [H|H]; [inversion H; subst; clear H; cbn; repeat split; intros ? ? ? E; vm_compute in E; inversion E; reflexivity|]). destruct H.
  - intros f ps body name H. apply ex_fn in H. vm_compute in H.
    repeat (destruct H as [H|H]; [inversion H; subst; clear H; cbn; repeat split; intros ? ? ? E; vm_compute in E; inversion E; reflexivity|]). destruct H.
Qed.
Lemma ex_calls_below n : nothing_known ex_scope n -> forall ps j k, (forall x, In x (ref_names n) -> In x ps -> j <= k) ->
  calls_below ex_scope None ex_rank_f ps j k n.
Proof.
  intros [Hv Hf] ps j k Hp. constructor.
  - intros f H1 H2. rewrite Hf in H2; congruence.
  - intros x v H1 _ H2. apply variable_node_assoc in H2. rewrite Hv in H2; congruence.
  - exact Hp.
Qed.
Lemma ex_nesting : nesting_scope ex_scope None ex_rank_f ex_bound.
Proof.
  split; [|split].
  - intro f. unfold ex_bound. lia.
  - intros x v H. apply ex_var in H. simpl in H.
    destruct H as [H|[H|[H|[]]]]; inversion H; subst; clear H; cbn; auto.
    split; [|auto]. intros _. constructor; [|constructor]. constructor.
    + intros g [].
    + intros x v [<-|[]] _ H. apply ex_var in H. vm_compute in H.
      destruct H as [H|[H|[H|[]]]]; inversion H; subst. constructor; [intros ? []|intros ? ? []|intros ? []].
    + intros ? _ [].
  - intros f ps body name H. apply ex_fn in H. vm_compute in H.
    repeat (destruct H as [H|H]; [inversion H; subst; clear H; cbn; auto|]); [..|destruct H].
    repeat split; auto. intros _. constructor; [|constructor]. apply ex_calls_below.
    + split; intros y Hy; vm_compute in Hy; names Hy; reflexivity.
    + intros. vm_compute. lia.
Qed.

(** ** C16 *)
Theorem C16_untouched : forall fuel ord sc pos n, 0 < fuel -> nothing_known sc n ->
  ast_eval fuel ord sc pos n = Ok n.
Proof. exact eval_untouched. Qed.
Print Assumptions C16_untouched.
Example C16_nonvacuous : let n := ex_formula (lit "=SUM(A1, 2) * VAT") in
  nothing_known ex_scope n /\ n <> NBool false.
Proof.
  split; [|vm_compute; discriminate]. split; intros x Hx; vm_compute in Hx; names Hx; reflexivity.
Qed.

(** ** C17, C18, C19, C20, C21: evaluation finds the meaning of the formula.
    The full properties quantify over all scopes without recursion. Proved here: all those that are
    hygienic (no name doubles as a later parameter), use the right numbers of arguments, and respect
    some [bound] on calls nested in arguments. The refutations below show that the last two
    conditions cannot be dropped. *)
Theorem C17_evaluation_is_expansion_partial : forall sc pos rv rf bound n K,
  plain_scope sc pos -> ranked sc pos rv rf -> hygienic sc pos -> arity_scope sc pos -> nesting_scope sc pos rf bound ->
  plain n -> below sc rv rf [] K n -> uncaptured sc [] n -> arity_ok sc n -> nesting sc pos rf bound [] 0 n ->
  exists m, expands sc pos n m /\ (forall m', expands sc pos n m' -> m' = m) /\ nothing_known sc m
    /\ forall ord fuel, is_order ord -> K < fuel -> ast_eval fuel ord sc pos n = Ok m.
Proof.
  intros sc pos rv rf bound n K H1 H2 H3 H4 H5 G1 G2 G3 G4 G5.
  assert (Hid : is_order (fun _ l => l)) by (intros k l; apply Permutation_refl).
  assert (Hg : good sc pos rf bound n) by (repeat split; assumption).
  destruct (eval_complete sc pos rv rf bound H1 H2 H4 H5 H3 _ (S K) K n Hid Hg G2 (Nat.lt_succ_diag_r K)) as [m [E1 [E2 E3]]].
  exists m. split; [assumption|]. split; [intros m' H; eapply expands_unique; eauto|]. split; [assumption|].
  intros ord fuel Ho Hf.
  destruct (eval_complete sc pos rv rf bound H1 H2 H4 H5 H3 ord fuel K n Ho Hg G2 Hf) as [m' [F1 [F2 F3]]].
  rewrite F1. f_equal. eapply expands_unique; eauto.
Qed.
Print Assumptions C17_evaluation_is_expansion_partial.
Definition ex_call : node := Eval vm_compute in ex_formula (lit "=total(half(4), price) + SUM(tax, vat_of_price)").
Example C17_nonvacuous :
  plain ex_call /\ below ex_scope ex_rank_v ex_rank_f [] 3 ex_call /\ uncaptured ex_scope [] ex_call
  /\ arity_ok ex_scope ex_call /\ nesting ex_scope None ex_rank_f ex_bound [] 0 ex_call
  /\ exists m, ast_eval 4 (fun _ l => l) ex_scope None ex_call = Ok m
     /\ show m = lit "((((4 / 2) * 100) + (((4 / 2) * 100) * 0.1)) + SUM(0.1, (100 * 0.1)))".
Proof.
  split; [vm_compute; tauto|]. split.
  { split; intros y Hy; vm_compute in Hy; names Hy; vm_compute; lia. }
  split.
  { intros y Hy _ L. apply ex_later in L. subst y. vm_compute in Hy; names Hy. }
  split.
  { vm_compute; repeat split; intros ? ? ? E; inversion E; reflexivity. }
  split; [|eexists; split; vm_compute; reflexivity].
  change ex_call with (NInfix (NCall [NCall [NInt false None 4] (lit "half"); NRef (lit "price")] (lit "total")) (lit "+")
                              (NCall [NRef (lit "tax"); NRef (lit "vat_of_price")] (lit "SUM"))).
  split.
  - apply nesting_call. split.
    + intros _. constructor; [|constructor; [|constructor]]; constructor.
      * intros f [<-|[]] _. vm_compute. lia.
      * intros x v [].
      * intros x [].
      * intros f [].
      * intros x v [<-|[]] _ H. apply ex_var in H. vm_compute in H. destruct H as [H|[H|[H|[]]]]; inversion H; subst.
        constructor; [intros ? []|intros ? ? []|intros ? []].
      * intros x _ [].
    + constructor; [|constructor; [exact I|constructor]]. apply nesting_call. split; [|constructor; [exact I|constructor]].
      intros _. constructor; [|constructor]. constructor; [intros ? []|intros ? ? []|intros ? []].
  - apply nesting_call. split; [intro H; exfalso; apply H; vm_compute; reflexivity|]. repeat constructor.
Qed.

(** Scopes of variables only: nothing but the absence of recursion is needed. *)
Theorem C17_variables : forall sc pos rv n K, functions sc = [] ->
  (forall x r, variable_node sc pos x = Some r -> exists v, r = Ok v /\ plain v
     /\ forall y, In y (ref_names v) -> assoc y (variables sc) <> None -> rv y < rv x) ->
  plain n -> (forall y, In y (ref_names n) -> assoc y (variables sc) <> None -> rv y < K) ->
  exists m, expands sc pos n m /\ (forall m', expands sc pos n m' -> m' = m)
    /\ (forall x, In x (ref_names m) -> assoc x (variables sc) = None)
    /\ forall ord fuel, is_order ord -> K < fuel -> ast_eval fuel ord sc pos n = Ok m.
Proof.
  intros sc pos rv n K Hf Hv Hp Hk.
  assert (NF : forall f, assoc f (functions sc) = None) by (intro f; rewrite Hf; reflexivity).
  assert (NC : forall ps m, uncaptured sc ps m).
  { intros ps m x _ _ [f [qs [b [nm [E _]]]]]. rewrite NF in E. discriminate. }
  assert (NA : forall m, arity_ok sc m).
  { induction m using node_induction; try exact I; try assumption.
    - apply arity_call. split; [intros ? ? ? E; rewrite NF in E; discriminate|assumption].
    - split; assumption.
    - cbn [arity_ok]. destruct v as [a0|a0|c0 f0|r0|r0 f0]; auto. }
  assert (NN : forall j ps m, nesting sc pos (fun _ => 0) (fun _ => 0) ps j m).
  { intros j ps. induction m using node_induction; try exact I; [|split; assumption].
    apply nesting_call. split; [intro E; rewrite NF in E; congruence|assumption]. }
  destruct (C17_evaluation_is_expansion_partial sc pos rv (fun _ => 0) (fun _ => 0) n K) as [m [M1 [M2 [[M3 _] M4]]]]; auto.
  - split; [|intros f g E; rewrite NF in E; discriminate]. intros x r E. destruct (Hv x r E) as [v [? [? _]]]. eauto.
  - split; [|intros f ps b nm E; rewrite NF in E; discriminate]. intros x v E.
    destruct (Hv x _ E) as [v' [E' [_ Hy]]]. inversion E'; subst. split; [auto|]. intros f _ E2. rewrite NF in E2. congruence.
  - split; [intros; apply NC|intros; apply NC].
  - split; [intros; apply NA|intros; apply NA].
  - repeat split; intros; auto.
  - split; [auto|]. intros f _ E2. rewrite NF in E2. congruence.
  - exists m. auto.
Qed.
Print Assumptions C17_variables.

(** With nested calls, even variables can be left in the output. *)
Definition ex_nested_scope : scope := Eval vm_compute in match code_section_parse ex_oracle (lit "x := 1
fn f(a) a + x") with Ok (sc, _) => sc | _ => empty_scope end.
Theorem C17_variable_left_refuted : exists n m,
  ast_parse ex_oracle false (lit "=f(f(f(f(1))))") = Ok n
  /\ ast_eval 10 (fun _ l => l) ex_nested_scope None n = Ok m
  /\ show m = lit "((f(f(1)) + x) + 1)" /\ In (lit "x") (ref_names m) /\ has_key (lit "x") (variables ex_nested_scope) = true.
Proof.
  do 2 eexists. split; [vm_compute; reflexivity|]. split; [vm_compute; reflexivity|].
  split; [vm_compute; reflexivity|]. split; [vm_compute; auto|vm_compute; reflexivity].
Qed.
Print Assumptions C17_variable_left_refuted.

(** Without any condition on nesting or numbers of arguments: whatever evaluation returns still means
    the same as the formula, and if nothing is left to resolve it is the meaning. *)
Theorem C17_result_keeps_meaning_partial : forall sc pos fuel ord n n' m,
  plain_scope sc pos -> hygienic sc pos -> plain n -> uncaptured sc [] n ->
  ast_eval fuel ord sc pos n = Ok n' ->
  (expands sc pos n m <-> expands sc pos n' m) /\ (nothing_known sc n' -> expands sc pos n n').
Proof.
  intros sc pos fuel ord n n' m H1 H2 G1 G2 H. split; [eapply eval_meaning; eauto|eapply eval_sound; eauto].
Qed.
Print Assumptions C17_result_keeps_meaning_partial.

(** Every formula without recursion has exactly one meaning, whatever the nesting. *)
Theorem C17_meaning_exists : forall sc pos rv rf n K,
  plain_scope sc pos -> ranked sc pos rv rf -> arity_scope sc pos ->
  plain n -> arity_ok sc n -> below sc rv rf [] K n ->
  exists m, expands sc pos n m /\ forall m', expands sc pos n m' -> m' = m.
Proof.
  intros sc pos rv rf n K H1 H2 H3 G1 G2 G3. destruct (expands_total sc pos rv rf H1 H2 H3 K n G1 G2 G3) as [m Hm].
  exists m. split; [assumption|]. intros m' H. eapply expands_unique; eauto.
Qed.
Print Assumptions C17_meaning_exists.

(** ** C18 *)
Theorem C18_order_partial : forall sc pos fuel1 fuel2 ord1 ord2 n n1 n2,
  plain_scope sc pos -> hygienic sc pos -> plain n -> uncaptured sc [] n ->
  ast_eval fuel1 ord1 sc pos n = Ok n1 -> ast_eval fuel2 ord2 sc pos n = Ok n2 ->
  nothing_known sc n1 -> nothing_known sc n2 -> n1 = n2.
Proof.
  intros sc pos fuel1 fuel2 ord1 ord2 n n1 n2 H1 H2 G1 G2 E1 E2 K1 K2.
  eapply expands_unique; eapply eval_sound; eauto.
Qed.
Print Assumptions C18_order_partial.
Definition ex_order_scope : scope := Eval vm_compute in match code_section_parse ex_oracle (lit "fn f(a) a
fn g(a) f(f(a))") with Ok (sc, _) => sc | _ => empty_scope end.
Definition order_1 (k : nat) (l : list str) : list str := l.
Definition order_2 (k : nat) (l : list str) : list str := rev l.
Theorem C18_order_refuted : exists n m1 m2,
  is_order order_1 /\ is_order order_2
  /\ ast_parse ex_oracle false (lit "=g(1) + f(1)") = Ok n
  /\ ast_eval 10 order_1 ex_order_scope None n = Ok m1 /\ show m1 = lit "(1 + 1)"
  /\ ast_eval 10 order_2 ex_order_scope None n = Ok m2 /\ show m2 = lit "(f(1) + 1)".
Proof.
  do 3 eexists. split; [intros k l; apply Permutation_refl|].
  split; [intros k l; apply Permutation_sym, Permutation_rev|].
  repeat split; vm_compute; reflexivity.
Qed.
Print Assumptions C18_order_refuted.

(** ** C19 *)
Theorem C19_terminates_partial : forall sc pos rv rf n K,
  plain_scope sc pos -> ranked sc pos rv rf -> hygienic sc pos ->
  plain n -> uncaptured sc [] n -> below sc rv rf [] K n ->
  exists rounds, forall ord fuel, is_order ord -> rounds <= fuel ->
    (exists n', ast_eval fuel ord sc pos n = Ok n') \/ (exists e, ast_eval fuel ord sc pos n = Err e).
Proof.
  intros sc pos rv rf n K H1 H2 H3 G1 G2 G3. eapply eval_ends; eauto.
Qed.
Print Assumptions C19_terminates_partial.
Example C19_nonvacuous : plain_scope ex_scope None /\ ranked ex_scope None ex_rank_v ex_rank_f /\ hygienic ex_scope None
  /\ plain ex_call /\ uncaptured ex_scope [] ex_call /\ below ex_scope ex_rank_v ex_rank_f [] 3 ex_call.
Proof.
  destruct C17_nonvacuous as [H1 [H2 [H3 _]]].
  exact (conj ex_plain (conj ex_ranked (conj ex_hygienic (conj H1 (conj H3 H2))))).
Qed.
Definition ex_loop_scope : scope := Eval vm_compute in match code_section_parse ex_oracle (lit "a := b
b := a") with Ok (sc, _) => sc | _ => empty_scope end.
Theorem C19_mutual_recursion_refuted : forall fuel ord, is_order ord ->
  ast_eval fuel ord ex_loop_scope None (NRef (lit "a")) = NoFuel.
Proof.
  intros fuel ord Ho.
  assert (O1 : forall k x, ord k [x] = [x]).
  { intros k x. apply Permutation_length_1_inv. apply Permutation_sym, Ho. }
  assert (O0 : forall k, ord k [] = []).
  { intro k. apply Permutation_nil. apply Permutation_sym, Ho. }
  set (ra := {| ref_functions := []; ref_variables := [lit "a"] |}).
  set (rb := {| ref_functions := []; ref_variables := [lit "b"] |}).
  assert (Ea : extract_references ex_loop_scope (NRef (lit "a")) = ra) by (vm_compute; reflexivity).
  assert (Eb : extract_references ex_loop_scope (NRef (lit "b")) = rb) by (vm_compute; reflexivity).
  assert (Ra : forall k, eval_round ex_loop_scope None (ord (2 * k) (ref_variables ra)) (ord (2 * k + 1) (ref_functions ra)) (NRef (lit "a")) = Ok (NRef (lit "b"))).
  { intro k. cbn [ra ref_variables ref_functions]. rewrite O1, O0. vm_compute. reflexivity. }
  assert (Rb : forall k, eval_round ex_loop_scope None (ord (2 * k) (ref_variables rb)) (ord (2 * k + 1) (ref_functions rb)) (NRef (lit "b")) = Ok (NRef (lit "a"))).
  { intro k. cbn [rb ref_variables ref_functions]. rewrite O1, O0. vm_compute. reflexivity. }
  assert (G : forall fuel k, (forall last, refs_eqb ra last = false -> eval_loop fuel ord k ex_loop_scope None last (NRef (lit "a")) = NoFuel)
    /\ (forall last, refs_eqb rb last = false -> eval_loop fuel ord k ex_loop_scope None last (NRef (lit "b")) = NoFuel)).
  { clear fuel. induction fuel as [|fuel IH]; intro k; split; intros last Hl; cbn [eval_loop]; auto.
    - rewrite Ea, Hl. change (refs_is_empty ra) with false. cbn [orb]. rewrite Ra. cbn [bind]. apply IH. reflexivity.
    - rewrite Eb, Hl. change (refs_is_empty rb) with false. cbn [orb]. rewrite Rb. cbn [bind]. apply IH. reflexivity. }
  apply G. reflexivity.
Qed.
Print Assumptions C19_mutual_recursion_refuted.

(** ** C20 *)
Theorem C20_call_partial : forall sc pos fuel ord f ps body name args,
  assoc f (functions sc) = Some (NFn ps body name) -> length args = length ps ->
  (forall p a, In p (tl ps) -> In a args -> ~ In p (ref_names a)) ->
  nothing_known sc body -> Forall (nothing_known sc) args ->
  is_order ord -> 2 <= fuel ->
  ast_eval fuel ord sc pos (NCall args f) = Ok (subst (combine ps args) body).
Proof.
  intros sc pos fuel ord f ps body name args Hf Hl Hc Hb Ha Ho Hfuel.
  destruct fuel as [|[|fuel]]; try lia. unfold ast_eval. cbn [eval_loop].
  assert (V : ref_variables (extract_references sc (NCall args f)) = []).
  { apply list_nil_In. intros x Hx. apply refs_vars_spec in Hx as [Hx Hk]. rewrite refs_call in Hx.
    apply in_flat_map in Hx as [a [Hin Hx]]. rewrite Forall_forall in Ha. apply Hk. apply (Ha a Hin). assumption. }
  assert (F : ref_functions (extract_references sc (NCall args f)) = [f]).
  { assert (Hin : forall g, In g (ref_functions (extract_references sc (NCall args f))) -> g = f).
    { intros g Hg. apply refs_fns_spec in Hg as [Hg Hk]. rewrite calls_call in Hg. destruct Hg as [|Hg]; [auto|].
      apply in_flat_map in Hg as [a [Hin Hg]]. rewrite Forall_forall in Ha. exfalso. apply Hk. apply (Ha a Hin). assumption. }
    unfold extract_references in *. cbn [extract_dfs] in *.
    assert (E : has_key f (functions sc) = true) by (apply has_key_assoc; congruence). rewrite E in *.
    cbn [no_references ref_functions ref_variables set_insert str_in app] in *.
    assert (G : forall l acc, Forall (nothing_known sc) l -> ref_functions acc = [f] ->
      ref_functions ((fix go l acc := match l with [] => acc | x :: r => go r (extract_dfs sc x acc) end) l acc) = [f]).
    { induction l as [|x l IH]; intros acc Hl0 Hacc; [assumption|]. apply Forall_cons_iff in Hl0 as [Hx Hl0].
      apply IH; [assumption|]. clear -Hx Hacc.
      assert (K : forall n acc, (forall g, In g (call_names n) -> assoc g (functions sc) = None) ->
        ref_functions (extract_dfs sc n acc) = ref_functions acc).
      { clear. induction n using node_induction; intros acc Hn; try reflexivity.
        - apply IHn. exact Hn.
        - cbn [extract_dfs]. rewrite calls_call in Hn.
          replace (has_key n (functions sc)) with false.
          2:{ symmetry. destruct (has_key n (functions sc)) eqn:E; [|reflexivity]. apply has_key_assoc in E.
              rewrite (Hn n (or_introl eq_refl)) in E. congruence. }
          assert (Hn' : forall g, In g (flat_map call_names a) -> assoc g (functions sc) = None) by (intros; apply Hn; right; assumption).
          clear Hn. revert acc. induction H as [|y l Hy Hl IH]; intro acc; [reflexivity|].
          rewrite IH; [|intros; apply Hn'; simpl; apply in_or_app; auto]. apply Hy.
          intros; apply Hn'; simpl; apply in_or_app; auto.
        - cbn [extract_dfs]. cbn [call_names] in Hn. rewrite IHn2, IHn1; auto; intros; apply Hn; apply in_or_app; auto.
        - cbn [extract_dfs]. destruct (has_key r (variables sc)); reflexivity.
        - destruct v as [a0|a0|c0 f0|r0|r0 f0]; try reflexivity. apply (H a0 eq_refl). exact Hn. }
      rewrite K; [assumption|]. apply Hx. }
    apply G; [assumption|reflexivity]. }
  set (refs := extract_references sc (NCall args f)) in *.
  replace (refs_is_empty refs) with false by (unfold refs_is_empty; rewrite F; reflexivity).
  replace (refs_eqb refs no_references) with false by (unfold refs_eqb, set_eqb; rewrite F; reflexivity).
  cbn [orb]. rewrite V, F.
  replace (ord (2 * 0) []) with (@nil str) by (symmetry; apply Permutation_nil, Permutation_sym, Ho).
  replace (ord (2 * 0 + 1) [f]) with [f] by (symmetry; apply Permutation_length_1_inv, Permutation_sym, Ho).
  unfold eval_round. cbn [resolve_variables bind eval_variables eval_functions]. rewrite Hf. cbn [call_function].
  rewrite str_eqb_refl, Hl, Nat.eqb_refl. cbn [bind]. rewrite (replace_params_subst ps args body Hl Hc).
  assert (N : nothing_known sc (subst (combine ps args) body)).
  { rewrite Forall_forall in Ha. split.
    - intros x Hx. apply refs_subst in Hx as [[Hx _]|[p [a [Hpa [_ Hx]]]]]; [apply Hb; assumption|].
      apply combine_In in Hpa as [_ Hin]. apply (Ha a Hin). assumption.
    - intros x Hx. apply calls_subst in Hx as [Hx|[p [a [Hpa [_ Hx]]]]]; [apply Hb; assumption|].
      apply combine_In in Hpa as [_ Hin]. apply (Ha a Hin). assumption. }
  apply empty_refs in N. rewrite N. reflexivity.
Qed.
Print Assumptions C20_call_partial.
Example C20_nonvacuous : exists ps body name,
  assoc (lit "half") (functions ex_scope) = Some (NFn ps body name)
  /\ nothing_known ex_scope body
  /\ show (subst (combine ps [ex_formula (lit "=A1 + 1")]) body) = lit "((A1 + 1) / 2)".
Proof.
  do 3 eexists. split; [vm_compute; reflexivity|]. split; [|vm_compute; reflexivity].
  split; intros x Hx; vm_compute in Hx; names Hx; reflexivity.
Qed.

Theorem C20_wrong_arity_partial : forall sc pos f ps body name k ord fuel n,
  plain_scope sc pos -> assoc f (functions sc) = Some (NFn ps body name) -> k <> length ps -> exposed sc f k n ->
  is_order ord -> exists e, ast_eval (S fuel) ord sc pos n = Err e.
Proof.
  intros sc pos f ps body name k ord fuel n Hp Hf Hk He Ho. eapply exposed_err; eauto.
Qed.
Print Assumptions C20_wrong_arity_partial.
Example C20_wrong_arity_nonvacuous : exists e,
  exposed ex_scope (lit "half") 2 (ex_formula (lit "=1 + SUM(half(1, 2))"))
  /\ ast_eval 10 order_1 ex_scope None (ex_formula (lit "=1 + SUM(half(1, 2))")) = Err e.
Proof.
  eexists. split; [|vm_compute; reflexivity].
  change (ex_formula (lit "=1 + SUM(half(1, 2))"))
    with (NInfix (NInt false None 1) (lit "+") (NCall [NCall [NInt false None 1; NInt false None 2] (lit "half")] (lit "SUM"))).
  apply e_right. eapply e_arg; [vm_compute; reflexivity|left; reflexivity|]. apply e_call. reflexivity.
Qed.

(** Substitution is one parameter after the other: an argument that mentions a later parameter is captured. *)
Definition ex_capture_scope : scope := Eval vm_compute in match code_section_parse ex_oracle (lit "x := tax
tax := 5
fn f(p, tax) p + tax") with Ok (sc, _) => sc | _ => empty_scope end.
Theorem C20_capture_refuted : exists n m,
  ast_parse ex_oracle false (lit "=f(x, 2)") = Ok n
  /\ ast_eval 10 order_1 ex_capture_scope None n = Ok m /\ show m = lit "(2 + 2)"
  /\ exists m', expands ex_capture_scope None n m' /\ show m' = lit "(5 + 2)".
Proof.
  do 2 eexists. split; [vm_compute; reflexivity|]. split; [vm_compute; reflexivity|]. split; [vm_compute; reflexivity|].
  eexists. split.
  - eapply x_call; [vm_compute; reflexivity|reflexivity|].
    cbn [subst combine assoc]. change (str_eqb (lit "p") (lit "p")) with true. cbv iota.
    change (str_eqb (lit "tax") (lit "p")) with false. change (str_eqb (lit "tax") (lit "tax")) with true. cbv iota.
    apply x_infix; [|apply x_leaf; reflexivity].
    eapply x_variable; [vm_compute; reflexivity|]. eapply x_variable; [vm_compute; reflexivity|]. apply x_leaf. reflexivity.
  - vm_compute. reflexivity.
Qed.
Print Assumptions C20_capture_refuted.
(** A wrong number of arguments inside an argument that is not used is not reported. *)
Definition ex_unused_scope : scope := Eval vm_compute in match code_section_parse ex_oracle (lit "fn f(a) 1") with Ok (sc, _) => sc | _ => empty_scope end.
Theorem C20_hidden_wrong_arity_refuted : exists n m,
  ast_parse ex_oracle false (lit "=f(f(1, 2))") = Ok n
  /\ ast_eval 10 order_1 ex_unused_scope None n = Ok m /\ show m = lit "1".
Proof. do 2 eexists. repeat split; vm_compute; reflexivity. Qed.
Print Assumptions C20_hidden_wrong_arity_refuted.

(** ** C69: what the error for a wrong number of arguments says *)
Lemma call_function_err f fn : forall n e, call_function f fn n = Err e ->
  exists ps body name, fn = NFn ps body name /\ ee_function e = fn /\ ee_received e = length ps /\ ee_expected e <> length ps.
Proof.
  fix IH 1. intros [| | | | args name|l op r| | | |x v] e; cbn [call_function]; try discriminate.
  - destruct (str_eqb name f).
    + clear IH. destruct fn; try discriminate. destruct (Nat.eqb_spec (length args) (length args0)); [discriminate|].
      intro H; injection H as <-. do 3 eexists. cbn. repeat split; eauto.
    + assert (G : forall l e, (fix go (l : list node) : outcome eval_error (list node) :=
          match l with
          | [] => Ok []
          | a :: r => do a' <- call_function f fn a; do r' <- go r; Ok (a' :: r')
          end) l = Err e -> exists ps body name, fn = NFn ps body name /\ ee_function e = fn /\ ee_received e = length ps /\ ee_expected e <> length ps).
      { clear e. induction l as [|a l IHl]; intro e; [discriminate|]. destruct (call_function f fn a) eqn:E; cbn [bind]; try discriminate.
        - match goal with |- context [bind ?x _] => destruct x eqn:E2 end; cbn [bind]; try discriminate. intro H; injection H as ->. eauto.
        - intro H; injection H as ->. eapply IH; eauto. }
      match goal with |- context [bind ?x _] => destruct x eqn:E2 end; cbn [bind]; try discriminate. intro H; injection H as ->. eauto.
  - destruct (call_function f fn l) eqn:E; cbn [bind]; try discriminate.
    + destruct (call_function f fn r) eqn:E2; cbn [bind]; try discriminate. intro H; injection H as ->. eapply IH; eauto.
    + intro H; injection H as ->. eapply IH; eauto.
  - destruct v; try discriminate. match goal with |- context [call_function f fn ?y] => destruct (call_function f fn y) eqn:E end; cbn [bind]; try discriminate. intro H; injection H as ->. eapply IH; eauto.
Qed.
Lemma eval_functions_err sc : forall fs n e, eval_functions sc fs n = Err e ->
  exists f ps body name, assoc f (functions sc) = Some (NFn ps body name) /\ ee_function e = NFn ps body name /\ ee_received e = length ps /\ ee_expected e <> length ps.
Proof.
  induction fs as [|f fs IH]; intros n e; cbn [eval_functions]; [discriminate|].
  destruct (assoc f (functions sc)) as [fn|] eqn:Ef; [|apply IH].
  destruct (call_function f fn n) as [n'|e'| |] eqn:Ec; cbn [bind]; try discriminate; [apply IH|].
  intro H; injection H as ->. destruct (call_function_err _ _ _ _ Ec) as [ps [body [name [-> [H1 [H2 H3]]]]]]. eauto 10.
Qed.
Lemma resolve_not_err sc pos : forall xs e, resolve_variables sc pos xs <> Err e.
Proof.
  induction xs as [|x xs IH]; intro e; cbn [resolve_variables]; [discriminate|].
  destruct (variable_node sc pos x) as [[v| | |]|]; try discriminate; [|apply IH].
  specialize (IH e). destruct (resolve_variables sc pos xs); cbn [bind]; congruence.
Qed.
(** C69: evaluating a formula fails only because a function is called with a number of arguments
    other than it declares; the error shows that function. *)
Theorem C69_arity_error : forall fuel ord sc pos n e,
  ast_eval fuel ord sc pos n = Err e ->
  exists f ps body name, assoc f (functions sc) = Some (NFn ps body name) /\ ee_function e = NFn ps body name
    /\ ee_received e = length ps /\ ee_expected e <> length ps.
Proof.
  intros fuel ord sc pos n e. unfold ast_eval. generalize 0 as k. generalize no_references as last. revert n.
  induction fuel as [|fuel IH]; intros n last k; cbn [eval_loop]; [discriminate|]. cbv zeta.
  destruct (_ || _); [discriminate|]. unfold eval_round.
  destruct (resolve_variables sc pos _) as [m|e'| |] eqn:Er; cbn [bind]; try discriminate; [|exfalso; eapply resolve_not_err; eauto].
  destruct (eval_functions sc _ _) as [n'|e'| |] eqn:Ef; cbn [bind]; try discriminate; [apply IH|].
  intro H; injection H as ->. eapply eval_functions_err; eauto.
Qed.
Print Assumptions C69_arity_error.
(** C69 refuted: half takes one argument and is called with two: the message says that 2 were
    expected and 1 received. *)
Theorem C69_numbers_refuted : exists ps body name e,
  assoc (lit "half") (functions ex_scope) = Some (NFn ps body name) /\ length ps = 1
  /\ ast_eval 10 order_1 ex_scope None (ex_formula (lit "=1 + SUM(half(1, 2))")) = Err e
  /\ ee_expected e = 2 /\ ee_received e = 1.
Proof. do 4 eexists. split; [vm_compute; reflexivity|]. split; [reflexivity|]. split; [vm_compute; reflexivity|]. split; reflexivity. Qed.
Print Assumptions C69_numbers_refuted.

(** ** C21 *)
Theorem C21_calls_expanded_partial : forall sc pos rv rf bound n K ord fuel,
  plain_scope sc pos -> ranked sc pos rv rf -> hygienic sc pos -> arity_scope sc pos -> nesting_scope sc pos rf bound ->
  plain n -> below sc rv rf [] K n -> uncaptured sc [] n -> arity_ok sc n -> nesting sc pos rf bound [] 0 n ->
  is_order ord -> K < fuel ->
  exists m, ast_eval fuel ord sc pos n = Ok m /\ forall f, In f (call_names m) -> assoc f (functions sc) = None.
Proof.
  intros sc pos rv rf bound n K ord fuel H1 H2 H3 H4 H5 G1 G2 G3 G4 G5 Ho Hf.
  destruct (C17_evaluation_is_expansion_partial sc pos rv rf bound n K H1 H2 H3 H4 H5 G1 G2 G3 G4 G5) as [m [_ [_ [[_ M3] M4]]]].
  exists m. split; [apply M4; assumption|assumption].
Qed.
Print Assumptions C21_calls_expanded_partial.
Definition ex_id_scope : scope := Eval vm_compute in match code_section_parse ex_oracle (lit "fn f(a) a") with Ok (sc, _) => sc | _ => empty_scope end.
Theorem C21_nested_call_refuted : forall ord, is_order ord -> exists n m,
  ast_parse ex_oracle false (lit "=f(f(1))") = Ok n
  /\ ast_eval 10 ord ex_id_scope None n = Ok m /\ show m = lit "f(1)".
Proof.
  intros ord Ho. exists (NCall [NCall [NInt false None 1] (lit "f")] (lit "f")), (NCall [NInt false None 1] (lit "f")).
  split; [vm_compute; reflexivity|]. split; [|vm_compute; reflexivity].
  unfold ast_eval. cbn [eval_loop].
  change (extract_references ex_id_scope (NCall [NCall [NInt false None 1] (lit "f")] (lit "f")))
    with {| ref_functions := [lit "f"]; ref_variables := [] |}.
  cbn [refs_is_empty refs_eqb set_eqb ref_functions ref_variables no_references forallb str_in andb orb].
  replace (ord (2 * 0) []) with (@nil str) by (symmetry; apply Permutation_nil, Permutation_sym, Ho).
  replace (ord (2 * 0 + 1) [lit "f"]) with [lit "f"] by (symmetry; apply Permutation_length_1_inv, Permutation_sym, Ho).
  vm_compute. reflexivity.
Qed.
Print Assumptions C21_nested_call_refuted.
