(** * ModuleProofs4: definitions without functions are fully evaluated, module by module. *)
From Coq Require Import Relations Permutation.
From Verif Require Import Base BaseProofs Csvp Ast AstProofs AstParser Eval EvalSpec EvalProofs EvalRounds ParsedPlain PropEval Options Sheet SheetProofs2 ModuleSpec ModuleProofs ModuleProofs2
  Loader LoaderSpec LoaderProofs PropLoader.

Lemma eval_loop_more ord sc pos : forall fuel fuel' k last n n', fuel <= fuel' -> eval_loop fuel ord k sc pos last n = Ok n' -> eval_loop fuel' ord k sc pos last n = Ok n'.
Proof.
  induction fuel as [|fuel IH]; intros fuel' k last n n' L H; [discriminate|]. destruct fuel' as [|fuel']; [lia|]. cbn [eval_loop] in *. destruct (_ || _); [exact H|].
  apply bind_ok in H as [x [H1 H]]. rewrite H1. cbn [bind]. apply IH; [lia|exact H].
Qed.
Lemma no_keys {A} (l : list (str * A)) : (forall f, assoc f l = None) -> l = [].
Proof. destruct l as [|[k v] l]; [reflexivity|]. intro H. specialize (H k). cbn [assoc] in H. destruct (str_eqb_spec k k); [discriminate|contradiction]. Qed.

(** whatever a formula evaluates to mentions no variable *)
Lemma eval_resolves sc pos rv fuel ord n n' : functions sc = [] -> ranked_variables sc pos rv -> is_order ord -> plain n ->
  ast_eval fuel ord sc pos n = Ok n' -> forall x, In x (ref_names n') -> assoc x (variables sc) = None.
Proof.
  intros Hf Hr Ho Hp H. set (K := S (list_max (map rv (ref_names n)))).
  destruct (C17_variables sc pos rv n K Hf Hr Hp) as [m [_ [_ [M3 M4]]]].
  - intros y Hy _. unfold K. assert (rv y <= list_max (map rv (ref_names n))); [|lia]. pose proof (proj1 (list_max_le (map rv (ref_names n)) _) (le_n _)) as Q. rewrite Forall_forall in Q. apply Q, in_map, Hy.
  - assert (Q : ast_eval (fuel + S K) ord sc pos n = Ok n') by (unfold ast_eval in *; eapply eval_loop_more; [|exact H]; lia).
    rewrite M4 in Q by (try assumption; lia). injection Q as <-. exact M3.
Qed.
Lemma no_functions_uncaptured sc ps n : functions sc = [] -> uncaptured sc ps n.
Proof. intros Hf x _ _ [f [qs [b [nm [E _]]]]]. rewrite Hf in E. discriminate. Qed.
Lemma no_functions_hygienic sc pos : functions sc = [] -> hygienic sc pos.
Proof. intro Hf. split; intros; apply no_functions_uncaptured, Hf. Qed.
Lemma ranked_plain sc pos rv : functions sc = [] -> ranked_variables sc pos rv -> plain_scope sc pos.
Proof. intros Hf H. split; [intros x r E; destruct (H _ _ E) as [v [A [B _]]]; eauto|]. intros f g E. rewrite Hf in E. discriminate. Qed.
(** names that are defined in [V] if they are anywhere, and evaluate to themselves, are not defined in [V0] *)
Lemma eval_closed (V0 : list (str * node)) sc pos rv fuel ord n n' : functions sc = [] -> ranked_variables sc pos rv -> is_order ord -> plain n ->
  (forall x v y, variable_node sc pos x = Some (Ok v) -> In y (ref_names v) -> assoc y V0 <> None -> assoc y (variables sc) <> None) ->
  (forall y, In y (ref_names n) -> assoc y V0 <> None -> assoc y (variables sc) <> None) ->
  ast_eval fuel ord sc pos n = Ok n' -> forall y, In y (ref_names n') -> assoc y V0 = None.
Proof.
  intros Hf Hr Ho Hp Hv Hn H y Hy. pose proof (eval_resolves _ _ _ _ _ _ _ Hf Hr Ho Hp H y Hy) as U.
  assert (S : clos_refl_trans node (unf sc pos) n n').
  { eapply eval_loop_steps; [eapply ranked_plain; eauto|apply no_functions_hygienic, Hf|exact Hp|apply no_functions_uncaptured, Hf|exact H]. }
  set (Q := fun z => assoc z V0 <> None -> assoc z (variables sc) <> None).
  assert (X : forall a b, clos_refl_trans node (unf sc pos) a b -> (forall z, In z (ref_names a) -> Q z) -> forall z, In z (ref_names b) -> Q z).
  { induction 1; auto. intros Ha z Hz. eapply (unf_names sc pos Q); eauto.
    - intros x1 v z1 E _ Hz1. exact (Hv _ _ _ E Hz1).
    - intros f ps b nm z1 E. rewrite Hf in E. discriminate. }
  specialize (X _ _ S Hn y Hy). unfold Q in X. destruct (assoc y V0); [|reflexivity]. exfalso. apply X; [discriminate|exact U].
Qed.

Section Resolved.
  Variable sc0 : scope.
  Hypothesis Hd : plain_defs sc0.
  Hypothesis Ha : parameters_apart sc0.
  Hypothesis Hf : functions sc0 = [].
  Variable rv : str -> nat.
  Hypothesis Hr : ranked_variables sc0 None rv.
  Notation steps0 := (clos_refl_trans node (unf sc0 None)).
  Notation known0 y := (assoc y (variables sc0) <> None).
  Notation knows sc y := (assoc y (variables sc) <> None).

  Lemma refined_no_functions sc : refines sc0 sc -> functions sc = [].
  Proof.
    intros [_ [_ F]]. apply no_keys. intro f. destruct (assoc f (functions sc)) as [g|] eqn:E; [|reflexivity]. destruct (F _ _ E) as [ps [b [b' [nm [nm' [X _]]]]]]. rewrite Hf in X. discriminate.
  Qed.
  Lemma refined_known sc y : refines sc0 sc -> knows sc y -> known0 y.
  Proof. intros [_ [V _]] K. destruct (assoc y (variables sc)) as [g|] eqn:E; [|contradiction]. destruct (V _ _ E) as [nm [nm' [v [v' [X _]]]]]. congruence. Qed.
  Lemma steps0_rank k n n' : steps0 n n' -> (forall y, In y (ref_names n) -> known0 y -> rv y < k) -> forall y, In y (ref_names n') -> known0 y -> rv y < k.
  Proof.
    intro S. induction S; auto. intros Hn z Hz. eapply (unf_names sc0 None (fun z => known0 z -> rv z < k)); eauto.
    - intros x1 v z1 E Q Hz1 K. destruct (Hr _ _ E) as [w [[= <-] [_ R]]]. specialize (R _ Hz1 K). specialize (Q (variable_node_assoc _ _ _ _ E)). lia.
    - intros f ps b nm z1 E. rewrite Hf in E. discriminate.
  Qed.
  Lemma refined_ranked sc pos : refines sc0 sc -> ranked_variables sc pos rv.
  Proof.
    intros R x r E. destruct (refined_node sc0 Hd sc R pos x r E) as [v [v' [A [-> [S P]]]]]. exists v'. split; [reflexivity|]. split; [exact P|]. intros y Hy K.
    eapply steps0_rank; [exact S| |exact Hy|eapply refined_known; eauto]. intros z Hz Kz. destruct (Hr _ _ A) as [w [[= <-] [_ Q]]]. auto.
  Qed.
  (** the value of [x] is done *)
  Definition done_at (sc : scope) (x : str) : Prop := forall nm v y, assoc x (variables sc) = Some (NVar nm (VAst v)) -> In y (ref_names v) -> ~ known0 y.
  Definition closed_in (sc : scope) (g : node) : Prop := forall nm v y, g = NVar nm (VAst v) -> In y (ref_names v) -> known0 y -> knows sc y.

  Lemma definitions_done fuel ord orig : (forall k, is_order (ord k)) -> forall ks sc sc', refines sc0 sc ->
    (forall x g, assoc x orig = Some g -> exists nm nm' v v', assoc x (variables sc0) = Some (NVar nm (VAst v)) /\ g = NVar nm' (VAst v') /\ steps0 v v') ->
    (forall x, assoc x orig <> None <-> knows sc x) ->
    (forall x g, assoc x orig = Some g -> closed_in sc g) -> (forall x g, assoc x (variables sc) = Some g -> closed_in sc g) ->
    eval_definitions fuel ord true ks orig sc = Ok sc' ->
    exports sc' = exports sc /\ (forall x, knows sc' x <-> knows sc x) /\ forall x, In x ks \/ done_at sc x -> done_at sc' x.
  Proof.
    intro Ho. induction ks as [|k ks IH]; intros sc sc' R O Ks Co Cs H; cbn [eval_definitions] in H.
    - injection H as <-. split; [reflexivity|]. split; [reflexivity|]. intros x [[]|D]; exact D.
    - destruct (assoc k orig) as [n|] eqn:K.
      + apply bind_ok in H as [n' [H1 H]]. set (sc1 := {| functions := functions sc; variables := assoc_insert k n' (variables sc); exports := exports sc |}) in *.
        assert (R1 : refines sc0 sc1) by (eapply (definitions_refine sc0 Hd Ha fuel ord true orig [k]); [exact R|exact O|cbn [eval_definitions]; rewrite K, H1; reflexivity]).
        destruct (O _ _ K) as [nm [nm' [v [v' [A [-> S]]]]]]. pose proof H1 as H2. apply eval_var_loop in H2 as [w [-> H2]].
        assert (Pv : plain v').
        { eapply steps0_plain; [exact Hd|exact S|]. destruct (proj2 Hd _ _ A) as [nm2 [v2 [[= <- <-] Hp]]]. exact Hp. }
        assert (Dw : forall y, In y (ref_names w) -> ~ known0 y).
        { intros y Hy Q. apply Q. eapply (eval_closed (variables sc0) sc None rv); [apply refined_no_functions, R|apply refined_ranked, R|apply Ho|exact Pv| | |exact H2|exact Hy].
          - intros x u z E Hz Kz. unfold variable_node in E. destruct (assoc x (variables sc)) as [g|] eqn:Ex; [|discriminate]. destruct (proj1 (proj2 R) _ _ Ex) as [n1 [n2 [u1 [u2 [_ [-> _]]]]]]. injection E as <-. exact (Cs _ _ Ex _ _ _ eq_refl Hz Kz).
          - intros z Hz Kz. exact (Co _ _ K _ _ _ eq_refl Hz Kz). }
        assert (K1 : forall x, knows sc1 x <-> knows sc x).
        { intro x. unfold sc1. cbn [variables]. destruct (str_eqb_spec x k) as [->|N]; [|rewrite assoc_insert_other by exact N; reflexivity]. rewrite assoc_insert_same. split; [intros _|discriminate]. apply Ks. congruence. }
        assert (C1 : forall g, closed_in sc g -> closed_in sc1 g) by (intros g C a b y E Hy Ky; apply K1; eapply C; eauto).
        destruct (IH sc1 sc' R1 O) as [E1 [E2 E3]]; [intro x; rewrite K1; apply Ks|intros x g E; apply C1, (Co _ _ E)| |exact H|].
        * intros x g E. unfold sc1 in E. cbn [variables] in E. apply assoc_insert_cases in E as [[-> ->]|E]; [|apply C1, (Cs _ _ E)]. intros a b y [= <- <-] Hy Ky. destruct (Dw _ Hy Ky).
        * split; [exact E1|]. split; [intro x; rewrite E2; apply K1|]. intros x Hx. apply E3. destruct (str_eqb_spec x k) as [->|N].
          -- right. intros a b y E Hy. unfold sc1 in E. cbn [variables] in E. rewrite assoc_insert_same in E. injection E as <- <-. auto.
          -- destruct Hx as [[->|Hx]|D]; [contradiction|auto|]. right. intros a b y E Hy. unfold sc1 in E. cbn [variables] in E. rewrite assoc_insert_other in E by exact N. eapply D; eauto.
      + destruct (IH sc sc' R O Ks Co Cs H) as [E1 [E2 E3]]. split; [exact E1|]. split; [exact E2|]. intros x [[->|Hx]|D]; apply E3; auto. right. intros a b y E. exfalso. apply (proj2 (Ks x)); [congruence|exact K].
  Qed.
  Definition done (sc : scope) : Prop := refines sc0 sc /\ forall x, done_at sc x.
  Lemma eval_scope_done E p sc sc' : (forall k, is_order (e_order E p k)) -> (forall l, Permutation (e_keys E p l) l) -> refines sc0 sc -> (forall x g, assoc x (variables sc) = Some g -> closed_in sc g) ->
    eval_scope E p sc = Ok sc' -> done sc' /\ exports sc' = exports sc /\ forall x, knows sc' x <-> knows sc x.
  Proof.
    intros Ho Pk R C H. pose proof H as H0. unfold eval_scope in H. apply bind_ok in H as [sc1 [H1 H]].
    assert (R1 : refines sc0 sc1) by (eapply (definitions_refine sc0 Hd Ha _ _ true); [exact R|exact (proj1 (proj2 R))|exact H1]).
    rewrite (refined_no_functions _ R1) in H.
    assert (Q : forall fuel ord ks s, eval_definitions fuel ord false ks [] s = Ok s) by (induction ks as [|k ks IH]; intro s; cbn [eval_definitions assoc]; auto).
    rewrite Q in H. injection H as ->.
    destruct (definitions_done _ _ (variables sc) Ho _ _ _ R (proj1 (proj2 R)) (fun x => iff_refl _) C C H1) as [E1 [E2 E3]].
    split; [|split; assumption]. split; [exact R1|]. intro x. destruct (assoc x (variables sc)) as [g|] eqn:Ex.
    - apply E3. left. eapply Permutation_in; [apply Permutation_sym, Pk|]. apply (in_map fst _ (x, g)), assoc_In, Ex.
    - intros nm v y Q2. exfalso. apply (proj1 (E2 x)); congruence.
  Qed.

  (** *** merging *)
  Lemma first_import_from name ss v : first_import variables name ss = Some v -> exists sc, In sc ss /\ assoc name (variables sc) = Some v.
  Proof.
    induction ss as [|sc ss IH]; cbn [first_import]; [discriminate|]. destruct (str_in name (exports sc)); [|intro H; destruct (IH H) as [sc1 [A B]]; exists sc1; split; [right; exact A|exact B]].
    destruct (assoc name (variables sc)) as [w|] eqn:Q; [intros [= <-]; exists sc; split; [left; reflexivity|exact Q]|intro H; destruct (IH H) as [sc1 [A B]]; exists sc1; split; [right; exact A|exact B]].
  Qed.
  Lemma first_import_some name ss sc : In sc ss -> In name (exports sc) -> knows sc name -> first_import variables name ss <> None.
  Proof.
    induction ss as [|s1 ss IH]; [intros []|]. intros [->|I] Ex K; cbn [first_import].
    - replace (str_in name (exports sc)) with true by (symmetry; apply str_in_spec, Ex). destruct (assoc name (variables sc)); [discriminate|contradiction].
    - destruct (str_in name (exports s1)); [|auto]. destruct (assoc name (variables s1)); [discriminate|auto].
  Qed.
  (** a scope and imported scopes, put together *)
  Definition put_together (sc : scope) (ss : list scope) (sc' : scope) : Prop :=
    forall name, assoc name (variables sc') = match assoc name (variables sc) with Some v => Some v | None => first_import variables name ss end.
  (** the scope's own values are closed in it or in what is exported by the others, and the others are done *)
  Lemma together_closed sc ss sc' : put_together sc ss sc' -> (forall s, In s ss -> done s) ->
    (forall x nm v y, assoc x (variables sc) = Some (NVar nm (VAst v)) -> In y (ref_names v) -> known0 y -> knows sc y \/ exists s, In s ss /\ In y (exports s) /\ knows s y) ->
    forall x g, assoc x (variables sc') = Some g -> closed_in sc' g.
  Proof.
    intros P D C x g Hx nm v y -> Hy Ky. rewrite P in Hx. destruct (assoc x (variables sc)) as [g'|] eqn:Q.
    - injection Hx as ->. rewrite P. destruct (C _ _ _ _ Q Hy Ky) as [K|[s [A [B K]]]]; [destruct (assoc y (variables sc)); [discriminate|contradiction]|].
      destruct (assoc y (variables sc)); [discriminate|]. eapply first_import_some; eauto.
    - apply first_import_from in Hx as [s [A B]]. exfalso. eapply (proj2 (D _ A)); eauto.
  Qed.
  Section Order.
    Variables (E : env) (uc : bool) (L0 : list (module_path * module)).
    Hypothesis Ho : forall p k, is_order (e_order E p k).
    Hypothesis Hk : forall p l, Permutation (e_keys E p l) l.
    Hypothesis HL : forall p m0, passoc p L0 = Some m0 -> m_path m0 = p /\ m_needs_eval m0 = true /\ refines sc0 (m_scope m0) /\ forall x, In x (exports (m_scope m0)) <-> knows (m_scope m0) x.
    Hypothesis Hv : forall p m0 x nm v y, passoc p L0 = Some m0 -> assoc x (variables (m_scope m0)) = Some (NVar nm (VAst v)) -> In y (ref_names v) -> known0 y ->
      knows (m_scope m0) y \/ exists q m', In q (m_requires m0) /\ passoc q L0 = Some m' /\ knows (m_scope m') y.
    (** [m] is the module [m0] of [L0], evaluated or not *)
    Definition version (p : module_path) (m0 m : module) : Prop :=
      m_path m = p /\ m_requires m = m_requires m0 /\ m_needs_eval m = true /\ exports (m_scope m) = exports (m_scope m0) /\ refines sc0 (m_scope m)
      /\ (forall x, knows (m_scope m0) x -> knows (m_scope m) x) /\ (done (m_scope m) \/ m_scope m = m_scope m0).
    Definition state (a : list module_path) (ld : list (module_path * module)) (scopes : list (module_path * scope)) : Prop :=
      forall p, match passoc p L0 with
                | None => passoc p ld = None /\ passoc p scopes = None
                | Some m0 => exists m, passoc p ld = Some m /\ version p m0 m /\ passoc p scopes = Some (m_scope m) /\ (In p a -> done (m_scope m))
                end.
    Lemma version_visible p m0 m ss scopes a ld : passoc p L0 = Some m0 -> version p m0 m -> state a ld scopes -> Forall2 (fun q s => passoc q scopes = Some s) (m_requires m) ss ->
      forall x nm v y, assoc x (variables (m_scope m)) = Some (NVar nm (VAst v)) -> In y (ref_names v) -> known0 y ->
      knows (m_scope m) y \/ exists s, In s ss /\ In y (exports s) /\ knows s y.
    Proof.
      intros P0 [Vp [Vr [_ [_ [_ [Vk Vd]]]]]] St Fs x nm v y Hx Hy Ky. destruct Vd as [D|Ve]; [exfalso; eapply (proj2 D); eauto|]. rewrite Ve in *.
      destruct (Hv _ _ _ _ _ _ P0 Hx Hy Ky) as [K|[q [m' [I [Q K]]]]]; [left; exact K|right]. rewrite <- Vr in I.
      pose proof (St q) as Sq. rewrite Q in Sq. destruct Sq as [m1 [_ [V1 [S1 _]]]]. destruct V1 as [_ [_ [_ [Ve1 [_ [Vk1 _]]]]]].
      assert (X : exists s, In s ss /\ passoc q scopes = Some s).
      { clear -Fs I. induction Fs as [|q1 s1 l1 l2 H _ IH]; [destruct I|]. destruct I as [->|I]; [exists s1; split; [left; reflexivity|exact H]|]. destruct (IH I) as [s [A B]]. exists s. split; [right; exact A|exact B]. }
      destruct X as [s [Is Es]]. rewrite S1 in Es. injection Es as <-. exists (m_scope m1). split; [exact Is|]. rewrite Ve1. split; [|apply Vk1, K]. apply (HL _ _ Q), K.
    Qed.
    Lemma in_order_done order0 : (forall a p b, order0 = a ++ p :: b -> forall m0 q, passoc p L0 = Some m0 -> In q (m_requires m0) -> In q a) ->
      forall order a ld scopes F ld' F', order0 = a ++ order -> state a ld scopes -> eval_in_order E uc order ld scopes F = (Ok ld', F') -> exists scopes', state order0 ld' scopes'.
    Proof.
      intro Hor. induction order as [|p order IH]; intros a ld scopes F ld' F' Eo St H; cbn [eval_in_order] in H.
      - injection H as <- _. rewrite app_nil_r in Eo. subst a. eauto.
      - assert (Eo' : order0 = (a ++ [p]) ++ order) by (rewrite <- app_assoc; exact Eo). pose proof (St p) as Sp. destruct (passoc p L0) as [m0|] eqn:P0.
        + destruct Sp as [m [Pm [Vm [Ps Pd]]]]. rewrite Pm in H. pose proof Vm as [Vp [Vr [Vn [Ve [Vf [Vk Vd]]]]]]. rewrite Vn in H. cbn [negb] in H.
          destruct (merge_scopes scopes (rev (m_requires m)) (m_scope m)) as [sc|] eqn:Ms; [|discriminate].
          destruct (C31_dependency_last _ _ _ Ms) as [ss [Fs Kk]].
          assert (Ds : forall s, In s (rev ss) -> done s).
          { intros s Is. apply in_rev in Is. assert (X : exists q, In q (m_requires m) /\ passoc q scopes = Some s).
            { clear -Fs Is. induction Fs as [|q1 s1 l1 l2 H _ IH]; [destruct Is|]. destruct Is as [->|I]; [exists q1; split; [left; reflexivity|exact H]|]. destruct (IH I) as [q [A B]]. exists q. split; [right; exact A|exact B]. }
            destruct X as [q [Iq Es]]. rewrite Vr in Iq. pose proof (Hor _ _ _ Eo _ _ P0 Iq) as Ia. pose proof (St q) as Sq. destruct (passoc q L0) as [m1|] eqn:Q0.
            - destruct Sq as [m2 [_ [_ [S2 D2]]]]. rewrite Es in S2. injection S2 as ->. auto.
            - destruct Sq. congruence. }
          assert (Rs : refines sc0 sc).
          { eapply merge_scopes_refines; [|exact Vf|exact Ms]. intros q s Es. pose proof (St q) as Sq. destruct (passoc q L0) as [m1|] eqn:Q0; [|destruct Sq; congruence].
            destruct Sq as [m2 [_ [V2 [S2 _]]]]. rewrite Es in S2. injection S2 as ->. apply V2. }
          assert (Pt : put_together (m_scope m) (rev ss) sc) by (intro name; apply (Kk variables name); left; reflexivity).
          assert (Cl : forall x g, assoc x (variables sc) = Some g -> closed_in sc g).
          { eapply together_closed; [exact Pt|exact Ds|]. intros x nm v y Hx Hy Ky. destruct (version_visible _ _ _ _ _ _ _ P0 Vm St Fs _ _ _ _ Hx Hy Ky) as [K|[s [A B]]]; [left; exact K|right]. exists s. split; [apply -> in_rev; exact A|exact B]. }
          assert (Xs : exports sc = exports (m_scope m)).
          { clear -Ms. revert Ms. generalize (rev (m_requires m)) (m_scope m). induction l as [|q l IH]; intros s0 H; cbn [merge_scopes] in H; [injection H as <-; reflexivity|]. destruct (passoc q scopes) as [d|]; [|discriminate].
            rewrite (IH _ H). unfold scope_merge. apply (scope_merge_spec d (exports d) s0 []). }
          destruct (eval_scope E p sc) as [sc'| | |] eqn:Es; try discriminate. destruct (eval_scope_done E p sc sc' (Ho p) (Hk p) Rs Cl Es) as [Dn [Ex Kn]].
          set (m' := with_scope m sc') in *. change (m_path m') with (m_path m) in H. rewrite Vp in H.
          assert (St' : state (a ++ [p]) (pinsert p m' ld) (pinsert p sc' scopes)).
          { intro q. destruct (path_eqb_spec q p) as [->|N].
            - rewrite P0. exists m'. rewrite !passoc_insert_same. split; [reflexivity|]. split; [|split; [reflexivity|intros _; exact Dn]].
              split; [exact Vp|]. split; [exact Vr|]. split; [exact Vn|]. change (m_scope m') with sc'. split; [congruence|]. split; [apply Dn|]. split; [|left; exact Dn].
              intros x Kx. apply Kn. rewrite Pt. specialize (Vk x Kx). destruct (assoc x (variables (m_scope m))); [discriminate|contradiction].
            - pose proof (St q) as Sq. rewrite !passoc_insert_other by exact N. destruct (passoc q L0) as [mq|]; [|exact Sq]. destruct Sq as [m1 [A [B [C D]]]]. exists m1. repeat (split; [assumption|]). intro I. apply D.
              apply in_app_or in I as [I|[I|[]]]; [exact I|congruence]. }
          cbv zeta in H. destruct uc; [destruct (write_object _ _ _); [|discriminate]|]; eapply IH; eauto.
        + rewrite (proj1 Sp) in H. eapply IH; [exact Eo'| |exact H]. intro q. pose proof (St q) as Sq. destruct (passoc q L0) as [m1|] eqn:Q; [|exact Sq]. destruct Sq as [m2 [A [B [C D]]]]. exists m2. repeat (split; [assumption|]).
          intro I. apply D. apply in_app_or in I as [I|[I|[]]]; [exact I|congruence].
    Qed.
  End Order.
End Resolved.
