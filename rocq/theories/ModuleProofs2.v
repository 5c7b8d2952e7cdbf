(** * ModuleProofs2: loading modules whose definitions are those of one scope. *)
From Coq Require Import Relations.
From Verif Require Import Base BaseProofs Csvp Ast AstProofs AstParser Eval EvalSpec EvalProofs EvalRounds ParsedPlain Options Sheet SheetProofs2 ModuleSpec ModuleProofs
  Loader LoaderSpec LoaderProofs.

Section Loading.
  Variable sc0 : scope.
  Hypothesis Hd : plain_defs sc0.
  Hypothesis Ha : parameters_apart sc0.
  Notation steps0 := (clos_refl_trans node (unf sc0 None)).
  Notation refines := (refines sc0).

  Lemma part_refines sc : part_of sc sc0 -> NoDup (map fst (variables sc)) -> refines sc.
  Proof.
    intros [P1 P2] N. split; [exact N|]. split.
    - intros x g E. apply P1 in E. destruct (proj2 Hd _ _ E) as [nm [v [-> _]]]. exists nm, nm, v, v. split; [exact E|]. split; [reflexivity|apply rt_refl].
    - intros f g E. apply P2 in E. destruct (proj1 Hd _ _ E) as [ps [b [nm [-> _]]]]. exists ps, b, b, nm, nm. split; [exact E|]. split; [reflexivity|apply rt_refl].
  Qed.
  Lemma merge_refines sc other : refines sc -> refines other -> refines (scope_merge sc other).
  Proof.
    intros [N [V F]] [_ [V' F']]. unfold scope_merge. split; [|split].
    - revert N. clear. generalize (exports other). intro es. revert sc. induction es as [|e es IH]; intros sc N; cbn [fold_left]; [exact N|]. apply IH. cbn [merge_export variables]. apply insert_new_nodup, N.
    - intros x g E. destruct (scope_merge_spec other (exports other) sc x) as [A _]. rewrite A in E. destruct (assoc x (variables sc)) eqn:Ex; [injection E as <-; apply V, Ex|].
      destruct (str_in x (exports other)); [|discriminate]. apply V', E.
    - intros x g E. destruct (scope_merge_spec other (exports other) sc x) as [_ [A _]]. rewrite A in E. destruct (assoc x (functions sc)) eqn:Ex; [injection E as <-; apply F, Ex|].
      destruct (str_in x (exports other)); [|discriminate]. apply F', E.
  Qed.
  Lemma definitions_refine fuel ord (vars : bool) orig : forall ks sc sc', refines sc ->
    (forall x g, assoc x orig = Some g -> if vars then exists nm nm' v v', assoc x (variables sc0) = Some (NVar nm (VAst v)) /\ g = NVar nm' (VAst v') /\ steps0 v v'
                                      else exists ps b b' nm nm', assoc x (functions sc0) = Some (NFn ps b nm) /\ g = NFn ps b' nm' /\ steps0 b b') ->
    eval_definitions fuel ord vars ks orig sc = Ok sc' -> refines sc'.
  Proof.
    induction ks as [|k ks IH]; intros sc sc' R O H; cbn [eval_definitions] in H; [injection H as <-; exact R|].
    destruct (assoc k orig) as [n|] eqn:K; [|eapply IH; eauto]. apply bind_ok in H as [n' [H1 H]]. eapply IH; [|exact O|exact H]. clear H. specialize (O _ _ K). destruct R as [N [V F]]. destruct vars.
    - destruct O as [nm [nm' [v [v' [E1 [-> E2]]]]]]. pose proof (node_value _ _ _ _ E1 None) as Q.
      destruct (eval_one_variable sc0 Hd Ha sc (conj N (conj V F)) fuel (ord k) k nm' v' n') as [w [-> S]]; [right; eauto|exact H1|].
      split; [|split]; cbn [variables functions].
      + apply assoc_insert_nodup, N.
      + intros x g E. apply assoc_insert_cases in E as [[-> ->]|E]; [|apply V, E]. exists nm, nm', v, w. split; [exact E1|]. split; [reflexivity|]. eapply rt_trans; eauto.
      + exact F.
    - destruct O as [ps [b [b' [nm [nm' [E1 [-> E2]]]]]]].
      destruct (eval_one_function sc0 Hd Ha sc (conj N (conj V F)) fuel (ord k) k ps b' nm' n') as [w [-> S]]; [eauto|exact H1|].
      split; [|split]; cbn [variables functions]; [exact N|exact V|].
      intros x g E. apply assoc_insert_cases in E as [[-> ->]|E]; [|apply F, E]. exists ps, b, w, nm, nm'. split; [exact E1|]. split; [reflexivity|]. eapply rt_trans; eauto.
  Qed.
  Lemma eval_scope_refines E p sc sc' : refines sc -> eval_scope E p sc = Ok sc' -> refines sc'.
  Proof.
    intros R H. unfold eval_scope in H. apply bind_ok in H as [sc1 [H1 H]]. assert (R1 : refines sc1) by (eapply (definitions_refine _ _ true); [exact R|exact (proj1 (proj2 R))|exact H1]).
    eapply (definitions_refine _ _ false); [exact R1|exact (proj2 (proj2 R1))|exact H].
  Qed.
  Lemma merge_scopes_refines scopes : (forall p sc, passoc p scopes = Some sc -> refines sc) -> forall req sc sc', refines sc -> merge_scopes scopes req sc = Some sc' -> refines sc'.
  Proof.
    intro S. induction req as [|p req IH]; intros sc sc' R H; cbn [merge_scopes] in H; [injection H as <-; exact R|].
    destruct (passoc p scopes) as [dep|] eqn:P; [|discriminate]. eapply IH; [|exact H]. apply merge_refines; eauto.
  Qed.
  Lemma pinsert_In {A} p (v : A) m q w : In (q, w) (pinsert p v m) -> w = v \/ In (q, w) m.
  Proof.
    induction m as [|[r u] m IH]; cbn [pinsert]; [intros [[= _ <-]|[]]; auto|]. destruct (path_eqb p r); [intros [[= _ <-]|H]; [auto|right; right; exact H]|].
    intros [H|H]; [right; left; exact H|]. destruct (IH H); [auto|right; right; assumption].
  Qed.
  Lemma in_order_refines E uc : forall order ld scopes F ld' F', (forall p m, In (p, m) ld -> refines (m_scope m)) -> (forall p sc, In (p, sc) scopes -> refines sc) ->
    eval_in_order E uc order ld scopes F = (Ok ld', F') -> forall p m, In (p, m) ld' -> refines (m_scope m).
  Proof.
    induction order as [|q order IH]; intros ld scopes F ld' F' L S H; cbn [eval_in_order] in H; [injection H as <- _; exact L|].
    destruct (passoc q ld) as [m|] eqn:Q; [|eapply IH; eauto]. destruct (negb (m_needs_eval m)); [eapply IH; eauto|].
    destruct (merge_scopes _ _ _) as [sc|] eqn:M; [|discriminate]. destruct (eval_scope E q sc) as [sc'| | |] eqn:V; try discriminate.
    assert (R : refines sc') by (eapply eval_scope_refines; [|exact V]; eapply merge_scopes_refines; [|eapply L, passoc_In, Q|exact M]; intros p s P; eapply S, passoc_In, P).
    assert (L' : forall p m0, In (p, m0) (pinsert q (with_scope m sc') ld) -> refines (m_scope m0)) by (intros p m0 P; apply pinsert_In in P as [->|P]; [exact R|eauto]).
    assert (S' : forall p sc1, In (p, sc1) (pinsert (m_path (with_scope m sc')) sc' scopes) -> refines sc1) by (intros p sc1 P; apply pinsert_In in P as [->|P]; [exact R|eauto]).
    cbv zeta in H. destruct uc; [destruct (write_object _ _ _); [|discriminate]|]; eapply IH; eauto.
  Qed.
  Lemma dependencies_refine E uc order ld F ld' F' : (forall p m, In (p, m) ld -> refines (m_scope m)) ->
    eval_dependencies E uc order ld F = (Ok ld', F') -> forall p m, In (p, m) ld' -> refines (m_scope m).
  Proof.
    intros L. apply in_order_refines; [exact L|]. intros p sc I. apply in_map_iff in I as [[q m] [[= _ <-] I]]. eapply L, I.
  Qed.
  Lemma premove_In {A} p (m : list (module_path * A)) x : In x (premove p m) -> In x m.
  Proof. induction m as [|[r v] m IH]; cbn [premove]; [intros []|]. destruct (path_eqb p r); [right; assumption|]. intros [<-|H]; [left; reflexivity|right; auto]. Qed.
  Lemma merge_required_refines : forall req ld sc sc', (forall p m, In (p, m) ld -> refines (m_scope m)) -> refines sc -> merge_required req ld sc = Some sc' -> refines sc'.
  Proof.
    induction req as [|p req IH]; intros ld sc sc' L R H; cbn [merge_required] in H; [injection H as <-; exact R|].
    destruct (passoc p ld) as [m|] eqn:P; [|discriminate]. eapply IH; [| |exact H]; [intros q m' I; eapply L, premove_In, I|]. apply merge_refines; [exact R|]. eapply L, passoc_In, P.
  Qed.
End Loading.

(** ** Formulas in the two scopes *)
Section Transfer.
  Variables (sc0 sc1 sc2 : scope) (pos : option address).
  Hypothesis Hd : plain_defs sc0.
  Hypothesis Ha : parameters_apart sc0.
  (** [sc1]: the definitions of [sc0] and other variables *)
  Hypothesis V1 : forall x g, assoc x (variables sc0) = Some g -> assoc x (variables sc1) = Some g.
  Hypothesis F1 : forall f, assoc f (functions sc1) = assoc f (functions sc0).
  Hypothesis P1 : plain_scope sc1 pos.
  Hypothesis H1 : hygienic sc1 pos.
  (** [sc2]: definitions of [sc0], some names replaced, and other variables of [sc1] *)
  Hypothesis V2 : forall x g, assoc x (variables sc2) = Some g ->
    (exists nm nm' v v', assoc x (variables sc0) = Some (NVar nm (VAst v)) /\ g = NVar nm' (VAst v') /\ clos_refl_trans node (unf sc0 None) v v')
    \/ assoc x (variables sc1) = Some g.
  Hypothesis F2 : forall f g, assoc f (functions sc2) = Some g -> exists ps b b' nm nm',
    assoc f (functions sc0) = Some (NFn ps b nm) /\ g = NFn ps b' nm' /\ clos_refl_trans node (unf sc0 None) b b'.
  Notation steps0 := (clos_refl_trans node (unf sc0 None)).
  Notation steps1 := (clos_refl_trans node (unf sc1 pos)).
  Lemma node0_node1 x v : variable_node sc0 None x = Some (Ok v) -> variable_node sc1 pos x = Some (Ok v).
  Proof.
    clear P1 H1. unfold variable_node. destruct (assoc x (variables sc0)) as [g|] eqn:E; [|discriminate]. rewrite (V1 _ _ E). destruct (proj2 Hd _ _ E) as [nm [w [-> _]]]. destruct pos; auto.
  Qed.
  Lemma unf0_unf1 n n' : unf sc0 None n n' -> unf sc1 pos n n'.
  Proof.
    intro U. induction U using unf_induction; [apply u_refl|apply u_var, node0_node1, H|apply u_infix; assumption|apply u_args; clear H; induction H0; constructor; auto|].
    eapply u_call; [rewrite F1; exact H|exact H0|]. clear -H3. induction H3; constructor; auto.
  Qed.
  Lemma steps0_steps1 n n' : steps0 n n' -> steps1 n n'.
  Proof. induction 1; [apply rt_step, unf0_unf1; assumption|apply rt_refl|eapply rt_trans; eauto]. Qed.
  Lemma steps1_back n n' m : steps1 n n' -> expands sc1 pos n' m -> expands sc1 pos n m.
  Proof. induction 1; intro X; auto. eapply unf_back; eauto. Qed.
  Lemma node2 x r : variable_node sc2 pos x = Some r ->
    (exists v v', variable_node sc0 None x = Some (Ok v) /\ r = Ok v' /\ steps0 v v') \/ variable_node sc1 pos x = Some r.
  Proof.
    clear P1 H1. unfold variable_node at 1. destruct (assoc x (variables sc2)) as [g|] eqn:E; [|discriminate]. intro H. destruct (V2 _ _ E) as [[nm [nm' [v [v' [A [-> S]]]]]]|A].
    - left. exists v, v'. split; [apply (node_value _ _ _ _ A)|]. split; [|exact S]. destruct pos; injection H as <-; reflexivity.
    - right. unfold variable_node. rewrite A. exact H.
  Qed.
  Lemma plain2 : plain_scope sc2 pos.
  Proof.
    split.
    - intros x r E. destruct (node2 _ _ E) as [[v [v' [A [-> S]]]]|A]; [|apply (proj1 P1 _ _ A)]. exists v'. split; [reflexivity|]. eapply steps0_plain; [exact Hd|exact S|].
      destruct (proj1 (sc0_plain sc0 Hd None) _ _ A) as [w [[= <-] Hp]]. exact Hp.
    - intros f g E. destruct (F2 _ _ E) as [ps [b [b' [nm [nm' [A [-> S]]]]]]]. exists ps, b', nm'. split; [reflexivity|]. eapply steps0_plain; [exact Hd|exact S|].
      destruct (proj1 Hd _ _ A) as [ps2 [b2 [nm2 [[= <- <- <-] Hp]]]]. exact Hp.
  Qed.
  Lemma later2 p : later_param sc2 p -> later_param sc1 p.
  Proof. intros [f [ps [b [nm [E I]]]]]. destruct (F2 _ _ E) as [ps2 [b2 [b' [nm2 [nm' [A [[= -> -> ->] S]]]]]]]. exists f, ps2, b2, nm2. split; [rewrite F1; exact A|exact I]. Qed.
  Lemma later2_parameter p : later_param sc2 p -> parameter sc0 p.
  Proof. intros [f [ps [b [nm [E I]]]]]. destruct (F2 _ _ E) as [ps2 [b2 [b' [nm2 [nm' [A [[= -> -> ->] S]]]]]]]. exists f, ps2, b2, nm2. split; [exact A|]. destruct ps2; [destruct I|right; exact I]. Qed.
  Lemma uncaptured2 ps n : uncaptured sc1 ps n -> uncaptured sc2 ps n.
  Proof. intros U x Hx Hn L. exact (U x Hx Hn (later2 _ L)). Qed.
  Lemma hygienic2 : hygienic sc2 pos.
  Proof.
    split.
    - intros x v E. destruct (node2 _ _ E) as [[w [v' [A [[= ->] S]]]]|A]; [|apply uncaptured2, (proj1 H1 _ _ A)].
      intros y Hy _ L. apply later2_parameter in L. destruct (steps0_names sc0 Ha [] _ _ S (var_value_names sc0 Ha _ _ A) y Hy) as [Q|[]]. contradiction.
    - intros f ps b nm E. destruct (F2 _ _ E) as [ps2 [b2 [b' [nm2 [nm' [A [[= -> -> ->] S]]]]]]]. intros y Hy Hn L. apply later2_parameter in L.
      destruct (steps0_names sc0 Ha ps2 _ _ S (body_names sc0 Ha _ _ _ _ A) y Hy) as [Q|Q]; contradiction.
  Qed.
  (** what a formula means with the modules it means in one file, if the meaning mentions nothing that is defined there *)
  Lemma transfer n m : expands sc2 pos n m -> nothing_known sc1 m -> expands sc1 pos n m.
  Proof.
    intro D. induction D using expands_induction; intro K.
    - apply x_leaf, H.
    - specialize (IHD K). destruct (node2 _ _ H) as [[w [v' [A [[= <-] S]]]]|A]; [|eapply x_variable; eauto].
      eapply x_variable; [apply node0_node1, A|]. eapply steps1_back; [apply steps0_steps1, S|exact IHD].
    - apply x_name. apply K. left. reflexivity.
    - destruct K as [K1 K2]. cbn [ref_names call_names] in *. apply x_infix; [apply IHD1|apply IHD2]; split; intros y Hy; (apply K1 || apply K2); apply in_or_app; auto.
    - specialize (IHD K). destruct (F2 _ _ H) as [ps2 [b2 [b' [nm2 [nm' [A [[= -> -> ->] S]]]]]]].
      eapply x_call; [rewrite F1; exact A|exact H0|]. eapply steps1_back; [|exact IHD]. apply steps0_steps1. apply steps_subst_params; [exact Hd|exact Ha| |exact S].
      intros p a I. apply combine_In in I as [I _]. exists f, ps2, b2, nm2. auto.
    - destruct K as [K1 K2]. apply x_other_call; [apply K2; left; reflexivity|]. rewrite refs_call in K1. rewrite calls_call in K2. clear H0.
      assert (K2' : forall f, In f (flat_map call_names ms) -> assoc f (functions sc1) = None) by (intros; apply K2; right; assumption). clear K2.
      revert K1 K2'. induction H2 as [|a b l l' Hab Hl IH]; intros K1 K2; constructor; cbn [flat_map] in *.
      + apply Hab. split; intros; [apply K1|apply K2]; apply in_or_app; auto.
      + apply IH; intros; [apply K1|apply K2]; apply in_or_app; auto.
  Qed.
End Transfer.
