(** * PropModules: definitions in several files (C53). *)
From Coq Require Import Relations.
From Verif Require Import Base BaseProofs Csvp SourceCode Ast AstProofs AstLexer AstParser Eval EvalSpec EvalProofs EvalRounds ParsedPlain Options CellParser PropCell Sheet SheetProofs2 PropSheet PropVariables
  PropEval ModuleSpec ModuleProofs ModuleProofs2 ModuleProofs3 ModuleProofs4 Loader LoaderSpec LoaderProofs LoaderProofs2 LoaderProofs3 PropLoader PropCache PropTarget PropCompile.

(** what a successful compilation from the source did *)
Lemma compiled_main E uc kv name F m F' text time prog : compiles E uc kv name F (Ok m, F') -> no_object F [name] \/ older_object F [name] ->
  sources F [name] = Some (text, time) -> load_source (e_co E) text = Ok prog ->
  exists main sh order ld F1 sc, load_from_source E F [name] [name] = Ok main /\ m_program main = prog /\ load_run (load_one E F uc) main sh TDone
    /\ resolution_order main (loaded sh) order
    /\ eval_dependencies E uc order (loaded sh) F = (Ok ld, F1) /\ merge_required (pr_required prog) ld (pr_scope prog) = Some sc
    /\ main_eval (e_sheet E) (e_sched E) {| pr_scope := sc; pr_sheet := pr_sheet prog; pr_required := pr_required prog |} kv = Ok (m_program m).
Proof.
  intros C No So Ld. inversion C as [main sh t order Lm R O Eq| |]; clear C. rewrite main_not_clean in Lm by exact No. pose proof Lm as Lm'. unfold load_from_source in Lm. rewrite So, Ld in Lm. injection Lm as <-.
  unfold compile_with in Eq. destruct (panicked t) eqn:Pt; [discriminate|]. unfold load_main in Eq.
  destruct (any_dirty _ _); [discriminate|]. destruct (eval_dependencies _ _ _ _ _) as [[ld|e| |] F1] eqn:Ed; try discriminate.
  unfold merge_direct_dependencies in Eq. destruct (failed sh); [|discriminate]. destruct (merge_required _ _ _) as [sc|] eqn:Mr; [|discriminate].
  unfold finish in Eq. cbn [m_needs_eval with_flags with_scope] in Eq. cbn [m_program with_flags with_scope pr_sheet pr_required] in Eq.
  destruct (main_eval _ _ _ kv) as [p'|e| |] eqn:Me; try discriminate.
  assert (Mp : m_program m = p').
  { destruct uc; [destruct (write_object _ _ _); [|discriminate]|]; injection Eq as <- _; reflexivity. }
  assert (Td : t = TDone) by (destruct R as [_ R]; destruct t; try discriminate R; [reflexivity|discriminate Pt]).
  subst t. do 6 eexists. split; [exact Lm'|]. split; [reflexivity|]. split; [exact R|]. split; [exact O|]. split; [exact Ed|]. split; [exact Mr|]. rewrite Mp. exact Me.
Qed.
Lemma run_loaded l main sh t : load_run l main sh t -> forall p m, In (p, m) (loaded sh) -> exists r, reachable l main p r /\ l p r = Ok m.
Proof. intros [H _]. destruct (sourced_run _ _ _ _ H) as [_ [Sl _]]. exact Sl. Qed.
Lemma main_eval_scope ev sched p kv p' : main_eval ev sched p kv = Ok p' -> exists s1, eval_fills (pr_sheet p) = Some s1 /\ pr_scope p' = sheet_scope {| pr_scope := pr_scope p; pr_sheet := s1; pr_required := pr_required p |} kv.
Proof.
  unfold main_eval, module_eval_fills. destruct (eval_fills (pr_sheet p)) as [s1|]; [|discriminate]. cbn [bind]. unfold eval_spreadsheet. intro H. apply bind_ok in H as [rows [_ H]]. injection H as <-. eauto.
Qed.
Lemma merge_variables_functions sc vars : functions (merge_variables sc vars) = functions sc.
Proof. reflexivity. Qed.
Lemma Forall2_nth {A B} (R : A -> B -> Prop) : forall l1 l2, length l1 = length l2 -> (forall i a b, nth_error l1 i = Some a -> nth_error l2 i = Some b -> R a b) -> Forall2 R l1 l2.
Proof.
  induction l1 as [|a l1 IH]; intros [|b l2] L H; try discriminate L; constructor; [apply (H 0); reflexivity|]. apply IH; [injection L; auto|]. intros i x y Hx Hy. apply (H (S i)); assumption.
Qed.
Lemma Forall2_nth_l {A B} (R : A -> B -> Prop) l1 l2 i a : Forall2 R l1 l2 -> nth_error l1 i = Some a -> exists b, nth_error l2 i = Some b /\ R a b.
Proof. intro F. revert i. induction F as [|x y l1 l2 H _ IH]; intros [|i] Hi; try discriminate Hi; [injection Hi as <-; exists y; auto|]. apply IH, Hi. Qed.

(** the scope of a sheet: definitions of one file, and definitions that refine them *)
Section Scopes.
  Variables (sc0 sc2 : scope) (s1 s2 : spreadsheet) (kv : list (str * node)) (q1 q2 : list module_path).
  Hypothesis Rf : refines sc0 sc2.
  Hypothesis U0 : NoDup (map fst (variables sc0)).
  Hypothesis Nk : NoDup (map fst kv).
  Hypothesis Ss : same_sheet s1 s2.
  Hypothesis Va : variables_apart {| pr_scope := sc0; pr_sheet := s1; pr_required := [] |} kv.
  Notation sA := (sheet_scope {| pr_scope := sc0; pr_sheet := s1; pr_required := q1 |} kv).
  Notation sB := (sheet_scope {| pr_scope := sc2; pr_sheet := s2; pr_required := q2 |} kv).
  Lemma scope_A x : assoc x (variables sA) = match assoc x (variables sc0) with Some v => Some v | None => match assoc x (sheet_variables s1) with Some v => Some v | None => assoc x kv end end.
  Proof. rewrite sheet_scope_assoc by assumption. reflexivity. Qed.
  Lemma scope_B x : assoc x (variables sB) = match assoc x (variables sc2) with Some v => Some v | None => match assoc x (sheet_variables s1) with Some v => Some v | None => assoc x kv end end.
  Proof. rewrite sheet_scope_assoc by (try exact Nk; exact (proj1 Rf)). cbn [pr_scope pr_sheet]. rewrite (sheet_variables_same _ _ Ss). reflexivity. Qed.
  Lemma A_has x g : assoc x (variables sc0) = Some g -> assoc x (variables sA) = Some g.
  Proof. intro Q. rewrite scope_A, Q. reflexivity. Qed.
  Lemma A_functions f : assoc f (functions sA) = assoc f (functions sc0).
  Proof. unfold sheet_scope. rewrite !merge_variables_functions. reflexivity. Qed.
  Lemma B_variables x g : assoc x (variables sB) = Some g ->
    (exists nm nm' v v', assoc x (variables sc0) = Some (NVar nm (VAst v)) /\ g = NVar nm' (VAst v') /\ clos_refl_trans node (unf sc0 None) v v') \/ assoc x (variables sA) = Some g.
  Proof.
    intro Q. rewrite scope_B in Q. destruct (assoc x (variables sc2)) as [g'|] eqn:Q2; [injection Q as <-; left; exact (proj1 (proj2 Rf) _ _ Q2)|]. right. rewrite scope_A.
    replace (assoc x (variables sc0)) with (@None node); [exact Q|]. symmetry. apply (Va x). cbn [pr_sheet].
    destruct (assoc x (sheet_variables s1)) as [w|] eqn:Q3; [left; apply (in_map fst _ (x, w)), assoc_In, Q3|right; apply (in_map fst _ (x, g)), assoc_In, Q].
  Qed.
  Lemma B_functions f g : assoc f (functions sB) = Some g -> exists ps b b' nm nm', assoc f (functions sc0) = Some (NFn ps b nm) /\ g = NFn ps b' nm' /\ clos_refl_trans node (unf sc0 None) b b'.
  Proof. intro Q. unfold sheet_scope in Q. rewrite !merge_variables_functions in Q. exact (proj2 (proj2 Rf) _ _ Q). Qed.
  Lemma B_in_A x : assoc x (variables sB) <> None -> assoc x (variables sA) <> None.
  Proof. intro Q. destruct (assoc x (variables sB)) as [g|] eqn:E; [|contradiction]. destruct (B_variables _ _ E) as [[nm [nm' [v [v' [Q3 _]]]]]|Q3]; [apply A_has in Q3|]; congruence. Qed.
  Lemma B_known n : nothing_known sA n -> nothing_known sB n.
  Proof.
    intros [K1 K2]. split; intros z Hz.
    - destruct (assoc z (variables sB)) eqn:Q; [|reflexivity]. exfalso. apply (B_in_A z); [congruence|auto].
    - destruct (assoc z (functions sB)) eqn:Q; [|reflexivity]. exfalso. pose proof (K2 z Hz) as Z. destruct (B_functions _ _ Q) as [ps [b [b' [nm [nm' [Q3 _]]]]]]. rewrite A_functions in Z. congruence.
  Qed.
End Scopes.
(** where the formulas of the result come from *)
Lemma result_cells ev sched p kv p' s1 : main_eval ev sched p kv = Ok p' -> eval_fills (pr_sheet p) = Some s1 ->
  forall r' c' n', In r' (sheet_rows (pr_sheet p')) -> In c' (row_cells r') -> cell_ast c' = Some n' ->
  exists r c n a, In r (sheet_rows (pr_sheet p)) /\ In c (row_cells r) /\ cell_ast c = Some n
    /\ ast_eval (ev_fuel ev) (ev_order ev a) (sheet_scope {| pr_scope := pr_scope p; pr_sheet := s1; pr_required := pr_required p |} kv) (Some a) n = Ok n'.
Proof.
  intros Me Ef r' c' n' Hr' Hc' An'. destruct (C52_in_place _ _ _ _ _ Me) as [p1 [Mf [L N]]]. unfold module_eval_fills in Mf. rewrite Ef in Mf. injection Mf as <-. cbn [pr_sheet] in *.
  apply In_nth_error in Hr' as [y Hr']. destruct (nth_error (sheet_rows s1) y) as [r|] eqn:Hr; [|apply nth_error_None in Hr; assert (Q : nth_error (sheet_rows (pr_sheet p')) y <> None) by congruence; apply nth_error_Some in Q; lia].
  destruct (N _ _ Hr) as [rx [X [_ [_ [_ [Lc Nc]]]]]]. rewrite Hr' in X. injection X as <-.
  apply In_nth_error in Hc' as [x Hc']. destruct (nth_error (row_cells r) x) as [c|] eqn:Hc; [|apply nth_error_None in Hc; assert (Q : nth_error (row_cells r') x <> None) by congruence; apply nth_error_Some in Q; lia].
  destruct (Nc _ _ Hc) as [cx [X [_ [_ [_ [_ K]]]]]]. rewrite Hc' in X. injection X as <-.
  destruct (cell_ast c) as [n|] eqn:An; [|congruence]. destruct K as [m [Ev Q]]. rewrite An' in Q. injection Q as <-.
  destruct (fills_cells _ _ Ef r (nth_error_In _ _ Hr)) as [r0 [I0 Cs]]. exists r0, c, n, {| addr_x := x; addr_y := y |}. split; [exact I0|]. split; [rewrite <- Cs; eapply nth_error_In; eauto|]. split; [exact An|exact Ev].
Qed.

(** ** C53 *)
(** A program in one file, and the same sheet in a file that gets the definitions, or some of them, from a tree of modules: every cell
    is written with the same text, if its formula is resolved in both. Parameters must not be called like variables or
    be mentioned elsewhere (refuted otherwise: PropCache). Missing: that the formulas are resolved; see C53_variables. *)
Theorem C53_moved_partial : forall E1 uc1 kv name1 F1 m1 F1' text1 time1 prog1 E2 uc2 name2 F2 m2 F2' text2 time2 prog2,
  (* everything in one file *)
  compiles E1 uc1 kv name1 F1 (Ok m1, F1') -> no_object F1 [name1] \/ older_object F1 [name1] ->
  sources F1 [name1] = Some (text1, time1) -> load_source (e_co E1) text1 = Ok prog1 -> pr_required prog1 = [] ->
  (* the definitions moved to modules *)
  compiles E2 uc2 kv name2 F2 (Ok m2, F2') -> no_object F2 [name2] \/ older_object F2 [name2] ->
  sources F2 [name2] = Some (text2, time2) -> load_source (e_co E2) text2 = Ok prog2 ->
  same_sheet (pr_sheet prog1) (pr_sheet prog2) -> part_of (pr_scope prog2) (pr_scope prog1) ->
  (uc2 = true -> forall f, f <> [name2] -> no_object F2 f) ->
  (forall main p r, load_from_source E2 F2 [name2] [name2] = Ok main -> reachable (load_one E2 F2 uc2) main p r ->
     filename_relative_to p r <> [name2] /\ forall m, load_one E2 F2 uc2 p r = Ok m -> part_of (m_scope m) (pr_scope prog1)) ->
  (* names *)
  parameters_apart (pr_scope prog1) -> NoDup (map fst kv) ->
  (forall s, eval_fills (pr_sheet prog1) = Some s -> variables_apart {| pr_scope := pr_scope prog1; pr_sheet := s; pr_required := [] |} kv) ->
  (forall a, plain_scope (m_scope m1) (Some a) /\ hygienic (m_scope m1) (Some a)) ->
  (forall r c n, In r (sheet_rows (pr_sheet prog1)) -> In c (row_cells r) -> cell_ast c = Some n -> uncaptured (m_scope m1) [] n) ->
  Forall2 (fun r1 r2 => Forall2 (fun c1 c2 => resolved (m_scope m1) c1 -> resolved (m_scope m1) c2 -> show_cell c1 = show_cell c2) (row_cells r1) (row_cells r2))
    (sheet_rows (pr_sheet (m_program m1))) (sheet_rows (pr_sheet (m_program m2))).
Proof.
  intros E1 uc1 kv name1 F1 m1 F1' text1 time1 prog1 E2 uc2 name2 F2 m2 F2' text2 time2 prog2 C1 No1 So1 Ld1 Rq1 C2 No2 So2 Ld2 Ss Po No Mo Pa Nk Va Hp Hu.
  set (sc0 := pr_scope prog1) in *. destruct (load_plain _ _ _ Ld1) as [Hd [Ps Fe1]]. destruct (load_plain _ _ _ Ld2) as [_ [_ Fe2]]. pose proof (load_source_unique _ _ _ Ld1) as [_ U1]. pose proof (load_source_unique _ _ _ Ld2) as [_ U2].
  destruct (compiled_main _ _ _ _ _ _ _ _ _ _ C1 No1 So1 Ld1) as (main1 & sh1 & order1 & ld1 & G1 & sc1 & _ & _ & _ & _ & _ & Mr1 & Me1). rewrite Rq1 in Mr1. cbn [merge_required] in Mr1. assert (Q1 : sc1 = sc0) by (inversion Mr1; reflexivity). clear Mr1. subst sc1.
  destruct (compiled_main _ _ _ _ _ _ _ _ _ _ C2 No2 So2 Ld2) as (main2 & sh2 & order2 & ld2 & G2 & sc2 & Lm2 & Mp2 & R2 & _ & Ed2 & Mr2 & Me2).
  assert (Rf : refines sc0 sc2).
  { eapply merge_required_refines; [|eapply part_refines; [exact Hd|exact Po|exact U2]|exact Mr2]. eapply (dependencies_refine sc0 Hd Pa); [|exact Ed2].
    intros p m I. destruct (run_loaded _ _ _ _ R2 p m I) as [r [Re Lo]]. destruct (Mo _ _ _ Lm2 Re) as [Nf Pm]. apply part_refines; [exact Hd|apply Pm, Lo|].
    assert (Ls : load_from_source E2 F2 p (filename_relative_to p r) = Ok m).
    { unfold load_one in Lo. destruct uc2; [|exact Lo]. unfold load_from_cache, load_from_object in Lo. specialize (No eq_refl _ Nf). unfold no_object in No. destruct (objects F2 _) as [[[?|] ?]|]; [destruct No|exact Lo|exact Lo]. }
    unfold load_from_source in Ls. destruct (sources F2 (filename_relative_to p r)) as [[tx ?]|]; [|discriminate]. destruct (load_source (e_co E2) tx) as [pg| | |] eqn:Lp; try discriminate. injection Ls as <-.
    exact (proj2 (load_source_unique _ _ _ Lp)). }
  destruct (main_eval_scope _ _ _ _ _ Me1) as [s1 [Ef1 Sc1]]. destruct (main_eval_scope _ _ _ _ _ Me2) as [s2 [Ef2 _]]. cbn [pr_sheet pr_scope pr_required] in *.
  destruct (C52_in_place _ _ _ _ _ Me1) as [p1 [Mf1 [L1 N1]]]. destruct (C52_in_place _ _ _ _ _ Me2) as [p2 [Mf2 [L2 N2]]].
  unfold module_eval_fills in Mf1, Mf2. cbn [pr_sheet pr_scope pr_required] in Mf1, Mf2. rewrite Ef1 in Mf1. rewrite Ef2 in Mf2. injection Mf1 as <-. injection Mf2 as <-. cbn [pr_sheet] in *.
  pose proof (fills_same _ _ _ _ Ss Ef1 Ef2) as St. pose proof (sheet_variables_same _ _ St) as Sv. destruct St as [_ St]. specialize (Va _ Ef1).
  fold (m_scope m1) in Sc1. set (sA := sheet_scope {| pr_scope := sc0; pr_sheet := s1; pr_required := pr_required prog1 |} kv) in *. set (sB := sheet_scope {| pr_scope := sc2; pr_sheet := s2; pr_required := pr_required prog2 |} kv) in *.
  assert (V1 : forall x g, assoc x (variables sc0) = Some g -> assoc x (variables sA) = Some g) by (intros x g; apply A_has; assumption).
  assert (FA : forall f, assoc f (functions sA) = assoc f (functions sc0)) by (intro f; apply A_functions).
  assert (Sx : same_sheet s1 s2) by (eapply fills_same; eauto).
  assert (V2 : forall x g, assoc x (variables sB) = Some g ->
    (exists nm nm' v v', assoc x (variables sc0) = Some (NVar nm (VAst v)) /\ g = NVar nm' (VAst v') /\ clos_refl_trans node (unf sc0 None) v v') \/ assoc x (variables sA) = Some g) by (intros x g; apply B_variables; assumption).
  assert (FB : forall f g, assoc f (functions sB) = Some g -> exists ps b b' nm nm', assoc f (functions sc0) = Some (NFn ps b nm) /\ g = NFn ps b' nm' /\ clos_refl_trans node (unf sc0 None) b b') by (intros f g; apply B_functions; assumption).
  rewrite Sc1 in *. clear Sc1.
  apply Forall2_nth; [rewrite L1, L2; eapply Forall2_len; exact St|]. intros y r1' r2' Hr1' Hr2'.
  destruct (nth_error (sheet_rows s1) y) as [r1|] eqn:Hr1; [|apply nth_error_None in Hr1; assert (nth_error (sheet_rows (pr_sheet (m_program m1))) y <> None) by congruence; apply nth_error_Some in H; lia].
  destruct (Forall2_nth_l _ _ _ _ _ St Hr1) as [r2 [Hr2 [_ [_ Sc]]]].
  destruct (N1 _ _ Hr1) as [r1x [X1 [_ [_ [_ [Lc1 Nc1]]]]]]. rewrite Hr1' in X1. injection X1 as <-. destruct (N2 _ _ Hr2) as [r2x [X2 [_ [_ [_ [Lc2 Nc2]]]]]]. rewrite Hr2' in X2. injection X2 as <-.
  apply Forall2_nth; [rewrite Lc1, Lc2; eapply Forall2_len; exact Sc|]. intros x c1' c2' Hc1' Hc2' Rs1 Rs2.
  destruct (nth_error (row_cells r1) x) as [c1|] eqn:Hc1; [|apply nth_error_None in Hc1; assert (nth_error (row_cells r1') x <> None) by congruence; apply nth_error_Some in H; lia].
  destruct (Forall2_nth_l _ _ _ _ _ Sc Hc1) as [c2 [Hc2 [A1 [A2 _]]]].
  destruct (Nc1 _ _ Hc1) as [c1x [X1 [_ [B1 [_ [_ K1]]]]]]. rewrite Hc1' in X1. injection X1 as <-. destruct (Nc2 _ _ Hc2) as [c2x [X2 [_ [B2 [_ [_ K2]]]]]]. rewrite Hc2' in X2. injection X2 as <-.
  unfold show_cell. rewrite <- A1 in K2. destruct (cell_ast c1) as [n|] eqn:An; [|rewrite K1, K2; congruence].
  destruct K1 as [n1 [Ev1 Q1]]. destruct K2 as [n2 [Ev2 Q2]]. rewrite Q1, Q2. f_equal. f_equal. specialize (Rs1 _ Q1). specialize (Rs2 _ Q2).
  destruct (fills_cells _ _ Ef1 r1 (nth_error_In _ _ Hr1)) as [r0 [I0 Cs]]. assert (Ic : In c1 (row_cells r0)) by (rewrite <- Cs; eapply nth_error_In; eauto).
  pose proof (Ps _ _ _ I0 Ic An) as Pn. pose proof (Hu _ _ _ I0 Ic An) as Un. set (a := {| addr_x := x; addr_y := y |}) in *. destruct (Hp a) as [Pl Hy].
  assert (D1 : expands sA (Some a) n n1) by (eapply eval_sound; eauto).
  assert (Kn : nothing_known sB n2) by (unfold sA, sB in *; eapply B_known; eauto).
  assert (D2 : expands sB (Some a) n n2).
  { eapply eval_sound; [eapply plain2; eauto|eapply hygienic2; eauto|exact Pn|eapply uncaptured2; eauto|exact Ev2|exact Kn]. }
  eapply expands_unique; [exact D1|]. eapply transfer; eauto.
Qed.
Print Assumptions C53_moved_partial.

Lemma Forall2_use {A B} (P1 : A -> Prop) (P2 : B -> Prop) (Q : A -> B -> Prop) l1 l2 : Forall2 (fun a b => P1 a -> P2 b -> Q a b) l1 l2 -> (forall a, In a l1 -> P1 a) -> (forall b, In b l2 -> P2 b) -> Forall2 Q l1 l2.
Proof. induction 1 as [|a b l1 l2 H _ IH]; intros H1 H2; constructor; [apply H; [apply H1|apply H2]; left; reflexivity|]. apply IH; intros; [apply H1|apply H2]; right; assumption. Qed.
(** Without functions, when imports are not circular, no name stands for two files, every definition and formula only uses variables of its own file
    and the files it imports directly, and no variable is defined in terms of itself: every cell is written with the same text. *)
Theorem C53_variables : forall E1 uc1 kv name1 F1 m1 F1' text1 time1 prog1 E2 uc2 name2 F2 m2 F2' text2 time2 prog2 rv depth,
  (* everything in one file *)
  compiles E1 uc1 kv name1 F1 (Ok m1, F1') -> no_object F1 [name1] \/ older_object F1 [name1] ->
  sources F1 [name1] = Some (text1, time1) -> load_source (e_co E1) text1 = Ok prog1 -> pr_required prog1 = [] ->
  (* the definitions moved to modules *)
  compiles E2 uc2 kv name2 F2 (Ok m2, F2') -> no_object F2 [name2] \/ older_object F2 [name2] ->
  sources F2 [name2] = Some (text2, time2) -> load_source (e_co E2) text2 = Ok prog2 ->
  same_sheet (pr_sheet prog1) (pr_sheet prog2) -> part_of (pr_scope prog2) (pr_scope prog1) ->
  (uc2 = true -> forall f, f <> [name2] -> no_object F2 f) ->
  NoDup (pr_required prog2) ->
  (forall main, load_from_source E2 F2 [name2] [name2] = Ok main ->
     unambiguous (load_one E2 F2 uc2) main /\ self_contained (load_one E2 F2 uc2) (pr_scope prog1) main
     /\ (forall q, In q (m_requires main) -> depth q < depth [name2])
     /\ (forall r c n y, In r (sheet_rows (pr_sheet prog1)) -> In c (row_cells r) -> cell_ast c = Some n -> In y (ref_names n) ->
           assoc y (variables (pr_scope prog1)) <> None -> sees (load_one E2 F2 uc2) main y)
     /\ (forall a x v y, assoc x (variables (pr_scope prog1)) = None -> variable_node (m_scope m1) (Some a) x = Some (Ok v) -> In y (ref_names v) ->
           assoc y (variables (pr_scope prog1)) <> None -> sees (load_one E2 F2 uc2) main y)
     /\ forall p r, reachable (load_one E2 F2 uc2) main p r -> filename_relative_to p r <> [name2]
        /\ forall m, load_one E2 F2 uc2 p r = Ok m -> part_of (m_scope m) (pr_scope prog1) /\ self_contained (load_one E2 F2 uc2) (pr_scope prog1) m
             /\ forall q, In q (m_requires m) -> depth q < depth p) ->
  (* names *)
  functions (pr_scope prog1) = [] -> (forall a, ranked_variables (m_scope m1) (Some a) rv) -> NoDup (map fst kv) ->
  (forall s, eval_fills (pr_sheet prog1) = Some s -> variables_apart {| pr_scope := pr_scope prog1; pr_sheet := s; pr_required := [] |} kv) ->
  (* hash maps are iterated in some order *)
  (forall a, is_order (ev_order (e_sheet E1) a)) -> (forall a, is_order (ev_order (e_sheet E2) a)) ->
  (forall p k, is_order (e_order E2 p k)) -> (forall p l, Permutation.Permutation (e_keys E2 p l) l) ->
  Forall2 (fun r1 r2 => Forall2 (fun c1 c2 => show_cell c1 = show_cell c2) (row_cells r1) (row_cells r2))
    (sheet_rows (pr_sheet (m_program m1))) (sheet_rows (pr_sheet (m_program m2))).
Proof.
  intros E1 uc1 kv name1 F1 m1 F1' text1 time1 prog1 E2 uc2 name2 F2 m2 F2' text2 time2 prog2 rv depth C1 No1 So1 Ld1 Rq1 C2 No2 So2 Ld2 Ss Po No Nr Mo Hf Hr Nk Va O1 O2 O3 O4.
  set (sc0 := pr_scope prog1) in *. destruct (load_plain _ _ _ Ld1) as [Hd [Ps Fe1]]. pose proof (load_source_unique _ _ _ Ld1) as [_ U1]. pose proof (load_source_unique _ _ _ Ld2) as [_ U2].
  assert (Pa : parameters_apart sc0).
  { assert (Np : forall x, ~ parameter sc0 x) by (intros x [f [ps [b [nm [Q _]]]]]; rewrite Hf in Q; discriminate). split; [intros p P; destruct (Np p P)|]. split; intros; apply Np. }
  destruct (compiled_main _ _ _ _ _ _ _ _ _ _ C1 No1 So1 Ld1) as (main1 & sh1 & order1 & ld1 & G1 & sc1 & _ & _ & _ & _ & _ & Mr1 & Me1). rewrite Rq1 in Mr1. cbn [merge_required] in Mr1.
  assert (Q1 : sc1 = sc0) by (inversion Mr1; reflexivity). clear Mr1. subst sc1.
  destruct (compiled_main _ _ _ _ _ _ _ _ _ _ C2 No2 So2 Ld2) as (main2 & sh2 & order2 & ld2 & G2 & sc2 & Lm2 & Mp2 & R2 & Or2 & Ed2 & Mr2 & Me2).
  destruct (main_eval_scope _ _ _ _ _ Me1) as [s1 [Ef1 Sc1]]. destruct (main_eval_scope _ _ _ _ _ Me2) as [s2 [Ef2 _]]. cbn [pr_sheet pr_scope pr_required] in *. fold (m_scope m1) in Sc1.
  assert (FA : functions (m_scope m1) = []) by (rewrite Sc1; unfold sheet_scope; rewrite !merge_variables_functions; exact Hf).
  pose proof (fills_same _ _ _ _ Ss Ef1 Ef2) as Sx. specialize (Va _ Ef1).
  destruct (Mo _ Lm2) as [Un [Sm [Dm [Vs [Vo Mp]]]]]. 
  destruct (from_source_shape _ _ _ _ _ Lm2) as [_ [Pm2 _]].
  assert (Ranked0 : ranked_variables sc0 None rv).
  { intros x r Q. assert (Q2 : exists v, r = Ok v) by (destruct (proj1 (plain_defs_scope sc0 None Hd) _ _ Q) as [v [X _]]; eauto). destruct Q2 as [v ->].
    assert (Q2 : variable_node (m_scope m1) (Some {| addr_x := 0; addr_y := 0 |}) x = Some (Ok v)) by (rewrite Sc1; exact (node0_node1 sc0 _ _ Hd (A_has sc0 s1 kv (pr_required prog1) U1 Nk) _ _ Q)).
    destruct (Hr _ _ _ Q2) as [w [[= <-] [P R]]]. exists v. split; [reflexivity|]. split; [exact P|]. intros y Hy Ky. apply R; [exact Hy|]. rewrite Sc1. destruct (assoc y (variables sc0)) as [g|] eqn:Qy; [|contradiction].
    rewrite (A_has sc0 s1 kv _ U1 Nk _ _ Qy). discriminate. }
  (* the modules as loaded *)
  assert (HL0 : forall p m, In (p, m) (loaded sh2) -> m_path m = p /\ m_needs_eval m = true /\ refines sc0 (m_scope m) /\ (forall x, In x (exports (m_scope m)) <-> assoc x (variables (m_scope m)) <> None)
    /\ exists r, reachable (load_one E2 F2 uc2) main2 p r /\ load_one E2 F2 uc2 p r = Ok m).
  { intros p m I. destruct (run_loaded _ _ _ _ R2 p m I) as [r [Re Lo]]. destruct (Mp _ _ Re) as [Nf Pm]. destruct (Pm _ Lo) as [Pt _].
    assert (Ls : load_from_source E2 F2 p (filename_relative_to p r) = Ok m).
    { unfold load_one in Lo. destruct uc2; [|exact Lo]. unfold load_from_cache, load_from_object in Lo. specialize (No eq_refl _ Nf). unfold no_object in No. destruct (objects F2 _) as [[[?|] ?]|]; [destruct No|exact Lo|exact Lo]. }
    pose proof (from_source_shape _ _ _ _ _ Ls) as [_ [A [B _]]]. split; [exact A|]. split; [exact B|].
    unfold load_from_source in Ls. destruct (sources F2 (filename_relative_to p r)) as [[tx ?]|]; [|discriminate]. destruct (load_source (e_co E2) tx) as [pg| | |] eqn:Lp; try discriminate. injection Ls as <-.
    assert (Rf : refines sc0 (pr_scope pg)) by (apply part_refines; [exact Hd|exact Pt|exact (proj2 (load_source_unique _ _ _ Lp))]).
    split; [exact Rf|]. split; [|eauto]. intro x. unfold m_scope. cbn [m_program]. rewrite (C27_exports _ _ _ x Lp). rewrite (refined_no_functions sc0 Hf _ Rf). cbn [assoc]. intuition congruence. }
  assert (HL : forall p m0, passoc p (loaded sh2) = Some m0 -> m_path m0 = p /\ m_needs_eval m0 = true /\ refines sc0 (m_scope m0) /\ forall x, In x (exports (m_scope m0)) <-> assoc x (variables (m_scope m0)) <> None).
  { intros p m0 P. apply passoc_In in P. destruct (HL0 _ _ P) as [A [B [C [D _]]]]. auto. }
  (* what is imported has been loaded *)
  assert (Im : forall m (r : module_path) q m', (m = main2 /\ r = [] \/ exists p, passoc p (loaded sh2) = Some m) -> In q (m_requires m) -> load_one E2 F2 uc2 q (m_path m) = Ok m' -> passoc q (loaded sh2) = Some m').
  { intros m r q m' Hm Hq Lq. assert (Rq : reachable (load_one E2 F2 uc2) main2 q (m_path m)).
    { destruct Hm as [[-> _]|[p P]]; [apply r_main, Hq|]. apply passoc_In in P. destruct (HL0 _ _ P) as [A [_ [_ [_ [r0 [B C]]]]]]. eapply r_import; eauto. }
    assert (Hq' : In q (m_requires main2) \/ exists q0 m0, passoc q0 (loaded sh2) = Some m0 /\ In q (m_requires m0)) by (destruct Hm as [[-> _]|[p P]]; [left; exact Hq|right; eauto]).
    destruct (C28_every_import_recorded _ _ _ _ _ R2 q Hq') as [_ [[m1' [r1 [A [_ [B C]]]]]|[e [r1 [A [_ [B C]]]]]]]; pose proof (Un _ _ _ B Rq) as X; rewrite C, Lq in X; [|discriminate]. injection X as ->. exact A. }
  assert (Hv : forall p m0 x nm v y, passoc p (loaded sh2) = Some m0 -> assoc x (variables (m_scope m0)) = Some (NVar nm (VAst v)) -> In y (ref_names v) -> assoc y (variables sc0) <> None ->
      assoc y (variables (m_scope m0)) <> None \/ exists q m', In q (m_requires m0) /\ passoc q (loaded sh2) = Some m' /\ assoc y (variables (m_scope m')) <> None).
  { intros p m0 x nm v y P Hx Hy Ky. pose proof (passoc_In _ _ _ P) as I. destruct (HL0 _ _ I) as [_ [_ [_ [_ [r [Re Lo]]]]]]. destruct (Mp _ _ Re) as [_ Pm]. destruct (Pm _ Lo) as [_ [Sc _]].
    destruct (Sc _ _ _ _ Hx Hy Ky) as [K|[q [m' [A [B K]]]]]; [left; exact K|right]. exists q, m'. split; [exact A|]. split; [|exact K]. eapply (Im m0 []); eauto. }
  (* dependencies come first *)
  assert (Dl : forall p q, leads_to main2 (loaded sh2) p q -> depth q < depth p).
  { assert (De : forall p q, In q (edges main2 (loaded sh2) p) -> depth q < depth p).
    { intros p q I. unfold edges in I. apply in_app_or in I as [I|I].
      - destruct (path_eqb_spec p (m_path main2)) as [->|]; [|destruct I]. rewrite Pm2. apply Dm, I.
      - destruct (passoc p (loaded sh2)) as [m|] eqn:P; [|destruct I]. apply passoc_In in P. destruct (HL0 _ _ P) as [_ [_ [_ [_ [r [Re Lo]]]]]]. destruct (Mp _ _ Re) as [_ Pm]. destruct (Pm _ Lo) as [_ [_ Dd]]. apply Dd, I. }
    intros p q L. induction L as [p q I|p q r I _ IH]; [apply De, I|]. specialize (De _ _ I). lia. }
  assert (Rm : m_requires main2 = pr_required prog2) by (unfold m_requires; rewrite Mp2; reflexivity).
  assert (Hor : forall a p b, order2 = a ++ p :: b -> forall m0 q, passoc p (loaded sh2) = Some m0 -> In q (m_requires m0) -> In q a).
  { intros a p b Eo m0 q P Iq. destruct Or2 as [Or1 Or2]. rewrite Rm in Or2. assert (Le : leads_to main2 (loaded sh2) p q) by (apply l_one; unfold edges; apply in_or_app; right; rewrite P; exact Iq).
    assert (Iq2 : In q order2).
    { apply Or1. unfold graph_nodes. apply reserve_spec. split; [|intros []]. right. apply in_or_app. right. apply in_flat_map. exists (p, m0). split; [apply passoc_In, P|]. right. exact Iq. }
    rewrite Eo in Iq2. apply in_app_or in Iq2 as [Iq2|[<-|Iq2]]; [exact Iq2|specialize (Dl _ _ Le); lia|]. exfalso. apply in_split in Iq2 as [b1 [b2 ->]].
    pose proof (Or2 Nr _ _ _ _ _ Eo Le) as Le2. pose proof (Dl _ _ Le). pose proof (Dl _ _ Le2). lia. }
  assert (St0 : state sc0 (loaded sh2) [] (loaded sh2) (map (fun pm => (fst pm, m_scope (snd pm))) (loaded sh2))).
  { intro p. assert (Pq : passoc p (map (fun pm => (fst pm, m_scope (snd pm))) (loaded sh2)) = option_map m_scope (passoc p (loaded sh2))).
    { generalize (loaded sh2). intro l. induction l as [|[q m] l IH]; cbn [map passoc fst snd]; [reflexivity|]. destruct (path_eqb p q); [reflexivity|exact IH]. }
    rewrite Pq. destruct (passoc p (loaded sh2)) as [m0|] eqn:P; [|auto]. exists m0. split; [reflexivity|]. split; [|split; [reflexivity|intros []]]. destruct (HL _ _ P) as [A [B [C D]]].
    split; [exact A|]. split; [reflexivity|]. split; [exact B|]. split; [reflexivity|]. split; [exact C|]. split; [auto|right; reflexivity]. }
  destruct (in_order_done sc0 Hd Pa Hf rv Ranked0 E2 uc2 (loaded sh2) O3 O4 HL Hv order2 Hor order2 [] _ _ F2 ld2 G2 eq_refl St0 Ed2) as [scopes' St].
  assert (Dn : forall p m, passoc p ld2 = Some m -> done sc0 (m_scope m) /\ exists m0, passoc p (loaded sh2) = Some m0 /\ version sc0 p m0 m).
  { intros p m P. pose proof (St p) as Sp. destruct (passoc p (loaded sh2)) as [m0|] eqn:P0; [|destruct Sp; congruence]. destruct Sp as [m' [A [B [_ D]]]]. rewrite P in A. injection A as <-. split; [|eauto]. apply D.
    destruct Or2 as [Or1 _]. apply Or1. unfold graph_nodes. apply reserve_spec. split; [|intros []]. right. apply in_or_app. right. apply in_flat_map. exists (p, m0). split; [apply passoc_In, P0|]. left. reflexivity. }
  (* the main module *)
  assert (Md : merge_direct_dependencies main2 ld2 [] = Ok (with_scope main2 sc2)).
  { unfold merge_direct_dependencies. unfold m_scope. rewrite Rm, Mp2, Mr2. reflexivity. }
  destruct (C31_main_first main2 ld2 (with_scope main2 sc2)) as [ss [Fs Kk]]; [rewrite Rm; exact Nr|exact Md|]. change (m_scope (with_scope main2 sc2)) with sc2 in Kk.
  assert (Pt : put_together (m_scope main2) ss sc2) by (intro name; apply (Kk variables name); left; reflexivity).
  assert (Ds : forall s, In s ss -> exists q m, In q (m_requires main2) /\ passoc q ld2 = Some m /\ s = m_scope m).
  { intros s Is. clear -Fs Is. induction Fs as [|q s1 l1 l2 [m [A B]] _ IH]; [destruct Is|]. destruct Is as [->|Is]; [exists q, m; split; [left; reflexivity|auto]|]. destruct (IH Is) as [q1 [m1 [I1 I2]]]. exists q1, m1. split; [right; exact I1|exact I2]. }
  assert (Sd : forall q m, In q (m_requires main2) -> passoc q ld2 = Some m -> In (m_scope m) ss).
  { intros q m Iq P. clear -Fs Iq P. induction Fs as [|q1 s1 l1 l2 [m1 [A B]] _ IH]; [destruct Iq|]. destruct Iq as [->|Iq]; [left; congruence|right; auto]. }
  assert (Rf : refines sc0 sc2).
  { eapply merge_required_refines; [|eapply part_refines; [exact Hd|exact Po|exact U2]|exact Mr2]. eapply (dependencies_refine sc0 Hd Pa); [|exact Ed2]. intros p m I. apply (HL0 _ _ I). }
  assert (Vis : forall y, sees (load_one E2 F2 uc2) main2 y -> assoc y (variables (m_scope main2)) <> None \/ exists s, In s ss /\ In y (exports s) /\ assoc y (variables s) <> None).
  { intros y [K|[q [m' [A [B K]]]]]; [left; exact K|right]. assert (Q : passoc q (loaded sh2) = Some m') by (eapply (Im main2 []); eauto).
    pose proof (St q) as Sq. rewrite Q in Sq. destruct Sq as [m [Pm [V _]]]. exists (m_scope m). split; [eapply Sd; eauto|]. destruct V as [_ [_ [_ [Ve [_ [Vk _]]]]]]. split; [rewrite Ve; apply (HL _ _ Q), K|apply Vk, K]. }
  assert (Vis2 : forall y, sees (load_one E2 F2 uc2) main2 y -> assoc y (variables sc2) <> None).
  { intros y S. rewrite (Pt y). destruct (Vis _ S) as [K|[s [A [B K]]]]; destruct (assoc y (variables (m_scope main2))); try discriminate; [contradiction|]. eapply first_import_some; eauto. }
  assert (Cl : forall x g, assoc x (variables sc2) = Some g -> closed_in sc0 sc2 g).
  { eapply together_closed; [exact Pt| |].
    - intros s Is. destruct (Ds _ Is) as [q [m [_ [P ->]]]]. apply (Dn _ _ P).
    - intros x nm v y Hx Hy Ky. apply Vis. eapply Sm; eauto. }
  pose proof (B_variables sc0 sc2 s1 s2 kv (pr_required prog1) (pr_required prog2) Rf U1 Nk Sx Va) as V2.
  pose proof (scope_B sc0 sc2 s1 s2 kv (pr_required prog2) Rf Nk Sx) as VB. pose proof (scope_A sc0 s1 kv (pr_required prog1) U1 Nk) as VA.
  pose proof (B_in_A sc0 sc2 s1 s2 kv (pr_required prog1) (pr_required prog2) Rf U1 Nk Sx Va) as BA.
  set (sB := sheet_scope {| pr_scope := sc2; pr_sheet := s2; pr_required := pr_required prog2 |} kv) in *. set (sA := sheet_scope {| pr_scope := sc0; pr_sheet := s1; pr_required := pr_required prog1 |} kv) in *.
  assert (FB : functions sB = []) by (unfold sB, sheet_scope; rewrite !merge_variables_functions; apply (refined_no_functions sc0 Hf _ Rf)).
  rewrite Sc1 in FA, Hr, Vo.
  assert (Up : forall y, (assoc y (variables sc0) <> None -> assoc y (variables sc2) <> None) -> assoc y (variables sA) <> None -> assoc y (variables sB) <> None).
  { intros y H K. rewrite VA in K. rewrite VB. destruct (assoc y (variables sc2)); [discriminate|]. destruct (assoc y (variables sc0)); [exfalso; apply H; [discriminate|reflexivity]|exact K]. }
  assert (Rb : forall a, ranked_variables sB (Some a) rv).
  { intros a x r Q. destruct (node2 sc0 sA sB (Some a) V2 x r Q) as [[v [v' [A [-> S]]]]|A].
    - assert (V0 : forall x0 g, assoc x0 (variables sc0) = Some g -> assoc x0 (variables sA) = Some g) by (intros x0 g Q0; rewrite VA, Q0; reflexivity).
      pose proof (node0_node1 sc0 sA (Some a) Hd V0 _ _ A) as A1. destruct (Hr _ _ _ A1) as [w [[= <-] [P R]]]. exists v'. split; [reflexivity|]. split; [eapply steps0_plain; [exact Hd|exact S|exact P]|].
      intros y Hy Ky. apply BA in Ky. revert y Hy Ky.
      assert (X : forall b c, clos_refl_trans node (unf sc0 None) b c -> (forall z, In z (ref_names b) -> assoc z (variables sA) <> None -> rv z < rv x) -> forall z, In z (ref_names c) -> assoc z (variables sA) <> None -> rv z < rv x).
      { induction 1; auto. intros Hb z Hz. eapply (unf_names sc0 None (fun z => assoc z (variables sA) <> None -> rv z < rv x)); eauto.
        - intros x1 u z1 Q2 L Hz1 K1. pose proof (node0_node1 sc0 sA (Some a) Hd V0 _ _ Q2) as Q3. destruct (Hr _ _ _ Q3) as [w2 [[= <-] [_ R2']]]. specialize (R2' _ Hz1 K1). specialize (L (variable_node_assoc _ _ _ _ Q3)). lia.
        - intros f ps b nm z1 Q2. rewrite Hf in Q2. discriminate. }
      exact (X _ _ S R).
    - destruct (Hr _ _ _ A) as [w [-> [P R]]]. exists w. split; [reflexivity|]. split; [exact P|]. intros y Hy Ky. apply R; [exact Hy|apply BA, Ky]. }
  assert (Rs1 : forall r c, In r (sheet_rows (pr_sheet (m_program m1))) -> In c (row_cells r) -> resolved sA c).
  { intros r c Ir Ic n' An'. destruct (result_cells _ _ _ _ _ _ Me1 Ef1 r c n' Ir Ic An') as (r0 & c0 & n & a & I0 & Ic0 & An & Ev). cbn [pr_sheet pr_scope pr_required] in *. fold sA in Ev.
    split; [|intros f _; rewrite FA; reflexivity]. eapply (eval_resolves sA (Some a) rv); [exact FA|apply Hr|apply O1|eapply Ps; eauto|exact Ev]. }
  assert (Rs2 : forall r c, In r (sheet_rows (pr_sheet (m_program m2))) -> In c (row_cells r) -> resolved sA c).
  { intros r c Ir Ic n' An'. destruct (result_cells _ _ _ _ _ _ Me2 Ef2 r c n' Ir Ic An') as (r0 & c0 & n & a & I0 & Ic0 & An & Ev). cbn [pr_sheet pr_scope pr_required] in *. fold sB in Ev.
    assert (In0 : exists r1 c1, In r1 (sheet_rows (pr_sheet prog1)) /\ In c1 (row_cells r1) /\ cell_ast c1 = Some n).
    { destruct Ss as [_ Ss]. destruct (Forall2_In_r _ _ _ _ Ss I0) as [r1 [I1 [_ [_ Fc]]]]. destruct (Forall2_In_r _ _ _ _ Fc Ic0) as [c1 [Ic1 [Q _]]]. exists r1, c1. split; [exact I1|]. split; [exact Ic1|congruence]. }
    destruct In0 as [r1 [c1 [I1 [Ic1 An1]]]].
    split; [|intros f _; rewrite FA; reflexivity]. eapply (eval_closed (variables sA) sB (Some a) rv); [exact FB|apply Rb|apply O2|eapply Ps; eauto| | |exact Ev].
    - intros x v y Q Hy. apply Up. intro Ky. unfold variable_node in Q. rewrite VB in Q. destruct (assoc x (variables sc2)) as [g|] eqn:Gx.
      + destruct (proj1 (proj2 Rf) _ _ Gx) as [nm [nm' [u [u' [_ [-> _]]]]]]. injection Q as <-. exact (Cl _ _ Gx _ _ _ eq_refl Hy Ky).
      + apply Vis2. eapply (Vo a x v y); [|unfold variable_node; rewrite VA| |exact Ky]; [|replace (assoc x (variables sc0)) with (@None node); [exact Q|symmetry]|exact Hy];
          apply (Va x); cbn [pr_sheet]; destruct (assoc x (sheet_variables s1)) as [w|] eqn:Q3; [left; apply (in_map fst _ (x, w)), assoc_In, Q3|right|left; apply (in_map fst _ (x, w)), assoc_In, Q3|right];
          destruct (assoc x kv) as [w|] eqn:Q4; try discriminate; apply (in_map fst _ (x, w)), assoc_In, Q4.
    - intros y Hy. apply Up. intro Ky. apply Vis2. eapply Vs; eauto. }
  assert (T : Forall2 (fun r1 r2 => Forall2 (fun c1 c2 => resolved (m_scope m1) c1 -> resolved (m_scope m1) c2 -> show_cell c1 = show_cell c2) (row_cells r1) (row_cells r2))
    (sheet_rows (pr_sheet (m_program m1))) (sheet_rows (pr_sheet (m_program m2)))).
  { apply (C53_moved_partial E1 uc1 kv name1 F1 m1 F1' text1 time1 prog1 E2 uc2 name2 F2 m2 F2' text2 time2 prog2 C1 No1 So1 Ld1 Rq1 C2 No2 So2 Ld2 Ss Po No); try assumption.
    - intros main p r Lm Re. rewrite Lm2 in Lm. injection Lm as <-. destruct (Mp _ _ Re) as [A B]. split; [exact A|]. intros m Lo. apply (B _ Lo).
    - intros s Q. rewrite Ef1 in Q. injection Q as <-. exact Va.
    - intro a. rewrite Sc1. split; [eapply ranked_plain; [exact FA|apply Hr]|apply no_functions_hygienic, FA].
    - intros r c n _ _ _. rewrite Sc1. apply no_functions_uncaptured, FA. }
  rewrite Sc1 in T. clear -T Rs1 Rs2. revert T Rs1 Rs2. generalize (sheet_rows (pr_sheet (m_program m1))) (sheet_rows (pr_sheet (m_program m2))). intros l1 l2 T. induction T as [|r1 r2 l1 l2 Fc _ IH]; intros R1 R2; constructor.
  - eapply Forall2_use; [exact Fc|intros c Hc; eapply R1; [left; reflexivity|exact Hc]|intros c Hc; eapply R2; [left; reflexivity|exact Hc]].
  - apply IH; intros r c Hr; [apply R1|apply R2]; right; exact Hr.
Qed.
Print Assumptions C53_variables.

(** *** an example: three modules, and all in one *)
Definition ex_single : fs := ex_files [(["main"], "tax := 2" ++ nl ++ "price := 100" ++ nl ++ "fee := price * tax" ++ nl ++ "extra := fee + 1" ++ nl ++ "---" ++ nl ++ "=extra,text,=price", 1)]%string.
Definition ex_split : fs := ex_files [(["main"], "use lib" ++ nl ++ "extra := fee + 1" ++ nl ++ "---" ++ nl ++ "=extra,text,=price", 1);
  (["lib"], "use base" ++ nl ++ "price := 100" ++ nl ++ "fee := price * tax" ++ nl ++ "---" ++ nl, 1); (["base"], "tax := 2" ++ nl ++ "---" ++ nl, 1)]%string.
Definition ex_module (o : option (outcome compile_error module * fs)) : module := match o with Some (Ok m, _) => m | _ => ex_main ex_single end.
Definition ex_text (F : fs) : str := match sources F [lit "main"] with Some (t, _) => t | None => [] end.
Definition ex_source (F : fs) : program := ex_program (ex_text F).
Definition split_order : list (list string) := [["base"]; ["lib"]; ["main"]]%string.
Definition ex_run1 (F : fs) order := ex_run (ex_E 5) true [] "main" F false order.
Lemma ex_compiles F order : match ex_run1 F order with Some (Ok _, _) => true | _ => false end = true -> compiles (ex_E 5) true [] (lit "main") F (Ok (ex_module (ex_run1 F order)), files_after (ex_run1 F order) F).
Proof.
  intro H. destruct (ex_run1 F order) as [[[m| | |] F']|] eqn:X; try discriminate. cbn [ex_module files_after]. eapply exec_compile_sound. exact X.
Qed.
Lemma reached (l : module_path -> module_path -> outcome load_failure module) main (ps : list (module_path * module_path)) :
  (forall q, In q (m_requires main) -> In (q, m_path main) ps) -> (forall p r m q, In (p, r) ps -> l p r = Ok m -> In q (m_requires m) -> In (q, m_path m) ps) ->
  forall p r, reachable l main p r -> In (p, r) ps.
Proof. intros A B p r H. induction H; eauto. Qed.
Definition ex_ranks (x : str) : nat := if str_eqb x (lit "extra") then 2 else if str_eqb x (lit "fee") then 1 else 0.
Definition ex_depth (p : module_path) : nat := if path_eqb p [lit "main"] then 2 else if path_eqb p [lit "lib"] then 1 else 0.
Definition ex_load := load_one (ex_E 5) ex_split true.
Definition ex_lib : module := match ex_load [lit "lib"] [lit "main"] with Ok m => m | _ => ex_main ex_single end.
Definition ex_base : module := match ex_load [lit "base"] [lit "lib"] with Ok m => m | _ => ex_main ex_single end.
Lemma ex_reach p r : reachable ex_load (ex_main ex_split) p r -> In (p, r) [([lit "lib"], [lit "main"]); ([lit "base"], [lit "lib"])].
Proof.
  apply reached.
  - vm_compute. intuition congruence.
  - intros p0 r0 m q [I|[I|[]]] L Q; apply pair_equal_spec in I as [<- <-].
    + assert (X : ex_lib = m) by (unfold ex_lib; rewrite L; reflexivity). subst m. revert Q. vm_compute. intuition congruence.
    + assert (X : ex_base = m) by (unfold ex_base; rewrite L; reflexivity). subst m. revert Q. vm_compute. intuition congruence.
Qed.
Lemma ex_loaded p r m : In (p, r) [([lit "lib"], [lit "main"]); ([lit "base"], [lit "lib"])] -> ex_load p r = Ok m -> p = [lit "lib"] /\ m = ex_lib \/ p = [lit "base"] /\ m = ex_base.
Proof. intros [I|[I|[]]] L; apply pair_equal_spec in I as [<- <-]; [left|right]; (split; [reflexivity|]); unfold ex_lib, ex_base; rewrite L; reflexivity. Qed.

Ltac each H := vm_compute in H; repeat (destruct H as [H|H]); try (exfalso; exact H).
Lemma assoc_cases {B} (P : str -> B -> Prop) (l : list (str * B)) : Forall (fun kv => P (fst kv) (snd kv)) l -> forall x v, assoc x l = Some v -> P x v.
Proof. intros F x v H. apply assoc_In in H. rewrite Forall_forall in F. exact (F _ H). Qed.
Lemma part_check (sc all : scope) : Forall (fun kv => assoc (fst kv) (variables all) = Some (snd kv)) (variables sc) -> Forall (fun kv => assoc (fst kv) (functions all) = Some (snd kv)) (functions sc) -> part_of sc all.
Proof. intros A B. split; intros x g; [apply (assoc_cases (fun k v => assoc k (variables all) = Some v) _ A)|apply (assoc_cases (fun k v => assoc k (functions all) = Some v) _ B)]. Qed.
Lemma ex_parts : part_of (pr_scope (ex_source ex_split)) (pr_scope (ex_source ex_single)) /\ part_of (m_scope ex_lib) (pr_scope (ex_source ex_single)) /\ part_of (m_scope ex_base) (pr_scope (ex_source ex_single)).
Proof. split; [|split]; apply part_check; vm_compute; repeat constructor. Qed.
(** [y] among the variables that the definitions of [m] mention *)
Definition mentioned (m : module) : list str := flat_map (fun kg => match snd kg with NVar _ (VAst v) => ref_names v | _ => [] end) (variables (m_scope m)).
Lemma contained_check l all m : Forall (fun y => assoc y (variables all) <> None -> sees l m y) (mentioned m) -> self_contained l all m.
Proof.
  intros F x nm v y Hx Hy Ky. rewrite Forall_forall in F. apply F; [|exact Ky]. apply in_flat_map. exists (x, NVar nm (VAst v)). split; [apply assoc_In, Hx|exact Hy].
Qed.
Lemma ex_contained : self_contained ex_load (pr_scope (ex_source ex_single)) (ex_main ex_split) /\ self_contained ex_load (pr_scope (ex_source ex_single)) ex_lib /\ self_contained ex_load (pr_scope (ex_source ex_single)) ex_base.
Proof.
  assert (L1 : ex_load [lit "lib"] (m_path (ex_main ex_split)) = Ok ex_lib) by (vm_compute; reflexivity). assert (L2 : ex_load [lit "base"] (m_path ex_lib) = Ok ex_base) by (vm_compute; reflexivity).
  assert (S1 : forall y, assoc y (variables (m_scope ex_lib)) <> None -> sees ex_load (ex_main ex_split) y) by (intros y K; right; exists [lit "lib"], ex_lib; split; [vm_compute; auto|auto]).
  assert (S2 : forall y, assoc y (variables (m_scope ex_base)) <> None -> sees ex_load ex_lib y) by (intros y K; right; exists [lit "base"], ex_base; split; [vm_compute; auto|auto]).
  split; [|split]; apply contained_check.
  - replace (mentioned (ex_main ex_split)) with [lit "fee"] by (vm_compute; reflexivity). constructor; [intros _; apply S1; vm_compute; discriminate|constructor].
  - replace (mentioned ex_lib) with [lit "price"; lit "tax"] by (vm_compute; reflexivity). constructor; [intros _; left; vm_compute; discriminate|]. constructor; [intros _; apply S2; vm_compute; discriminate|constructor].
  - replace (mentioned ex_base) with (@nil str) by (vm_compute; reflexivity). constructor.
Qed.
Example C53_variables_nonvacuous :
  let m1 := ex_module (ex_run1 ex_single [["main"]]%string) in let p1 := ex_source ex_single in let p2 := ex_source ex_split in
  (compiles (ex_E 5) true [] (lit "main") ex_single (Ok m1, files_after (ex_run1 ex_single [["main"]]%string) ex_single) /\ load_source ex_co (ex_text ex_single) = Ok p1 /\ pr_required p1 = [])
  /\ (compiles (ex_E 5) true [] (lit "main") ex_split (Ok (ex_module (ex_run1 ex_split split_order)), files_after (ex_run1 ex_split split_order) ex_split) /\ load_source ex_co (ex_text ex_split) = Ok p2)
  /\ same_sheet (pr_sheet p1) (pr_sheet p2) /\ part_of (pr_scope p2) (pr_scope p1) /\ NoDup (pr_required p2)
  /\ (forall main, load_from_source (ex_E 5) ex_split [lit "main"] [lit "main"] = Ok main ->
     unambiguous ex_load main /\ self_contained ex_load (pr_scope p1) main
     /\ (forall q, In q (m_requires main) -> ex_depth q < ex_depth [lit "main"])
     /\ (forall r c n y, In r (sheet_rows (pr_sheet p1)) -> In c (row_cells r) -> cell_ast c = Some n -> In y (ref_names n) ->
           assoc y (variables (pr_scope p1)) <> None -> sees ex_load main y)
     /\ (forall a x v y, assoc x (variables (pr_scope p1)) = None -> variable_node (m_scope m1) (Some a) x = Some (Ok v) -> In y (ref_names v) ->
           assoc y (variables (pr_scope p1)) <> None -> sees ex_load main y)
     /\ forall p r, reachable ex_load main p r -> filename_relative_to p r <> [lit "main"]
        /\ forall m, ex_load p r = Ok m -> part_of (m_scope m) (pr_scope p1) /\ self_contained ex_load (pr_scope p1) m
             /\ forall q, In q (m_requires m) -> ex_depth q < ex_depth p)
  /\ functions (pr_scope p1) = [] /\ (forall a, ranked_variables (m_scope m1) (Some a) ex_ranks)
  /\ (forall s, eval_fills (pr_sheet p1) = Some s -> variables_apart {| pr_scope := pr_scope p1; pr_sheet := s; pr_required := [] |} [])
  /\ output_of m1 = [map lit ["=((100 * 2) + 1)"; "text"; "=100"]]%string.
Proof.
  cbv zeta. split; [split; [apply ex_compiles; vm_compute; reflexivity|vm_compute; auto]|]. split; [split; [apply ex_compiles; vm_compute; reflexivity|vm_compute; auto]|].
  split; [vm_compute; split; [reflexivity|]; repeat constructor|]. split; [apply ex_parts|]. split; [vm_compute; repeat constructor; intros []|].
  split; [|split; [vm_compute; reflexivity|split; [|split; [|vm_compute; reflexivity]]]].
  - intros main Lm. assert (Q : main = ex_main ex_split) by (unfold ex_main; assert (X : load_from_cache_from_filename (ex_E 5) ex_split [lit "main"] [lit "main"] = load_from_source (ex_E 5) ex_split [lit "main"] [lit "main"]) by (apply main_not_clean; left; exact I); rewrite X, Lm; reflexivity).
    subst main. clear Lm.
    assert (S1 : forall y, assoc y (variables (m_scope ex_lib)) <> None -> sees ex_load (ex_main ex_split) y) by (intros y K; right; exists [lit "lib"], ex_lib; split; [vm_compute; auto|split; [vm_compute; reflexivity|exact K]]).
    split; [|split; [apply ex_contained|split; [|split; [|split]]]].
    + intros p r r' H1 H2. apply ex_reach in H1. apply ex_reach in H2. destruct H1 as [H1|[H1|[]]], H2 as [H2|[H2|[]]]; apply pair_equal_spec in H1 as [<- <-]; apply pair_equal_spec in H2 as [H2 <-]; try reflexivity; discriminate H2.
    + intros q Hq. assert (X : [lit "lib"] = q) by (vm_compute in Hq; destruct Hq as [Hq|[]]; exact Hq). subst q. vm_compute. auto.
    + intros r c n y Hr Hc Hn Hy _. assert (X : In y [lit "extra"; lit "price"]).
      { assert (Z : In y (flat_map (fun r => flat_map (fun c => match cell_ast c with Some n => ref_names n | None => [] end) (row_cells r)) (sheet_rows (pr_sheet (ex_source ex_single))))).
        { apply in_flat_map. exists r. split; [exact Hr|]. apply in_flat_map. exists c. split; [exact Hc|]. rewrite Hn. exact Hy. }
        vm_compute in Z. exact Z. }
      destruct X as [<-|[<-|[]]]; [left; vm_compute; discriminate|apply S1; vm_compute; discriminate].
    + intros a x v y N Hx. exfalso. assert (Z : assoc x (variables (m_scope (ex_module (ex_run1 ex_single [["main"]]%string)))) = assoc x (variables (pr_scope (ex_source ex_single)))) by (f_equal; vm_compute; reflexivity).
      unfold variable_node in Hx. rewrite Z, N in Hx. discriminate Hx.
    + intros p r H. apply ex_reach in H. split; [destruct H as [H|[H|[]]]; apply pair_equal_spec in H as [<- <-]; vm_compute; discriminate|]. intros m L. destruct ex_parts as [_ [P1 P2]]. destruct ex_contained as [_ [C1 C2]].
      destruct (ex_loaded _ _ _ H L) as [[-> ->]|[-> ->]]; (split; [assumption|split; [assumption|]]); vm_compute; [intros q [<-|[]]; vm_compute; auto|intros q []].
  - intros a x r Hx.
    set (vs := variables (m_scope (ex_module (ex_run1 ex_single [["main"]]%string)))) in *.
    assert (F : Forall (fun kg => exists nm v, snd kg = NVar nm (VAst v) /\ plain v /\ Forall (fun y => ex_ranks y < ex_ranks (fst kg)) (ref_names v)) vs).
    { vm_compute. repeat (constructor; [do 2 eexists; split; [reflexivity|]; split; [repeat split|repeat constructor]|]). constructor. }
    unfold variable_node in Hx. fold vs in Hx. destruct (assoc x vs) as [g|] eqn:G; [|discriminate]. apply assoc_In in G. rewrite Forall_forall in F. destruct (F _ G) as [nm [v [Q [P R]]]]. cbn [fst snd] in Q, R. subst g.
    injection Hx as <-. exists v. split; [reflexivity|]. split; [exact P|]. intros y Hy _. rewrite Forall_forall in R. apply R, Hy.
  - intros s Hs x [Hx|[]]. exfalso. assert (Z : Some (map fst (sheet_variables s)) = Some []) by (change (option_map (fun s => map fst (sheet_variables s)) (Some s) = Some []); rewrite <- Hs; vm_compute; reflexivity). injection Z as Z. exact (eq_ind _ (fun l => In x l) Hx _ Z).
Qed.
(** so the two give the same sheet *)
Example C53_variables_example : output_of (ex_module (ex_run1 ex_split split_order)) = output_of (ex_module (ex_run1 ex_single [["main"]]%string)).
Proof. vm_compute. reflexivity. Qed.
(** with functions: C53_moved_partial *)
Definition ex_single_fn : fs := ex_files [(["main"], "tax := 2" ++ nl ++ "fn with_tax(n) n * tax" ++ nl ++ "fee := 100" ++ nl ++ "---" ++ nl ++ "=with_tax(fee),text", 1)]%string.
Definition ex_split_fn : fs := ex_files [(["main"], "use lib" ++ nl ++ "fee := 100" ++ nl ++ "---" ++ nl ++ "=with_tax(fee),text", 1);
  (["lib"], "use base" ++ nl ++ "fn with_tax(n) n * tax" ++ nl ++ "---" ++ nl, 1); (["base"], "tax := 2" ++ nl ++ "---" ++ nl, 1)]%string.
Lemma reached_fn p r : reachable (load_one (ex_E 5) ex_split_fn true) (ex_main ex_split_fn) p r -> In (p, r) [([lit "lib"], [lit "main"]); ([lit "base"], [lit "lib"])].
Proof.
  apply reached.
  - vm_compute. intuition congruence.
  - intros p0 r0 m q [I|[I|[]]] L Q; apply pair_equal_spec in I as [<- <-].
    + assert (X : match load_one (ex_E 5) ex_split_fn true [lit "lib"] [lit "main"] with Ok m => m | _ => ex_main ex_single end = m) by (rewrite L; reflexivity). subst m. revert Q. vm_compute. intuition congruence.
    + assert (X : match load_one (ex_E 5) ex_split_fn true [lit "base"] [lit "lib"] with Ok m => m | _ => ex_main ex_single end = m) by (rewrite L; reflexivity). subst m. revert Q. vm_compute. intuition congruence.
Qed.
Lemma assoc_one {B} (x k : str) (v w : B) : assoc x [(k, v)] = Some w -> x = k /\ w = v.
Proof. intro H. apply assoc_In in H as [H|[]]. inversion H. auto. Qed.
Example C53_moved_nonvacuous :
  let m1 := ex_module (ex_run1 ex_single_fn [["main"]]%string) in let p1 := ex_source ex_single_fn in let p2 := ex_source ex_split_fn in
  (compiles (ex_E 5) true [] (lit "main") ex_single_fn (Ok m1, files_after (ex_run1 ex_single_fn [["main"]]%string) ex_single_fn) /\ load_source ex_co (ex_text ex_single_fn) = Ok p1 /\ pr_required p1 = [])
  /\ (compiles (ex_E 5) true [] (lit "main") ex_split_fn (Ok (ex_module (ex_run1 ex_split_fn split_order)), files_after (ex_run1 ex_split_fn split_order) ex_split_fn) /\ load_source ex_co (ex_text ex_split_fn) = Ok p2)
  /\ same_sheet (pr_sheet p1) (pr_sheet p2) /\ part_of (pr_scope p2) (pr_scope p1)
  /\ (forall main p r, load_from_source (ex_E 5) ex_split_fn [lit "main"] [lit "main"] = Ok main -> reachable (load_one (ex_E 5) ex_split_fn true) main p r ->
     filename_relative_to p r <> [lit "main"] /\ forall m, load_one (ex_E 5) ex_split_fn true p r = Ok m -> part_of (m_scope m) (pr_scope p1))
  /\ parameters_apart (pr_scope p1)
  /\ (forall a, plain_scope (m_scope m1) (Some a) /\ hygienic (m_scope m1) (Some a))
  /\ (forall r c n, In r (sheet_rows (pr_sheet p1)) -> In c (row_cells r) -> cell_ast c = Some n -> uncaptured (m_scope m1) [] n)
  /\ output_of m1 = [map lit ["=(100 * 2)"; "text"]]%string /\ output_of (ex_module (ex_run1 ex_split_fn split_order)) = output_of m1.
Proof.
  cbv zeta. split; [split; [apply ex_compiles; vm_compute; reflexivity|vm_compute; auto]|]. split; [split; [apply ex_compiles; vm_compute; reflexivity|vm_compute; auto]|].
  split; [vm_compute; split; [reflexivity|]; repeat constructor|]. split; [apply part_check; vm_compute; repeat constructor|].
  set (m1 := ex_module (ex_run1 ex_single_fn [["main"]]%string)). 
  assert (Fn : exists body nm, functions (m_scope m1) = [(lit "with_tax", NFn [lit "n"] body nm)] /\ functions (pr_scope (ex_source ex_single_fn)) = [(lit "with_tax", NFn [lit "n"] body nm)]
     /\ ref_names body = [lit "n"; lit "tax"] /\ plain body) by (vm_compute; do 2 eexists; repeat split; reflexivity).
  destruct Fn as [body [nm [F1 [F2 [Fr Fp]]]]].
  assert (Vr : forall vs, vs = variables (m_scope m1) \/ vs = variables (pr_scope (ex_source ex_single_fn)) -> forall x g, assoc x vs = Some g -> x <> lit "n" /\ exists nm v, g = NVar nm (VAst v) /\ plain v /\ ref_names v = []).
  { intros vs Hv. apply (assoc_cases (fun x g => x <> lit "n" /\ exists nm v, g = NVar nm (VAst v) /\ plain v /\ ref_names v = [])). destruct Hv as [->| ->]; vm_compute; repeat (constructor; [split; [discriminate|do 2 eexists; repeat split; reflexivity]|]); constructor. }
  assert (Lt : forall p, ~ later_param (m_scope m1) p) by (intros p [f [ps [b [nm' [Q I]]]]]; rewrite F1 in Q; apply assoc_one in Q as [_ Q]; inversion Q; subst ps; destruct I).
  split; [|split; [|split; [|split; [|vm_compute; auto]]]].
  - intros main p r Lm H. assert (Q : main = ex_main ex_split_fn) by (unfold ex_main; assert (X : load_from_cache_from_filename (ex_E 5) ex_split_fn [lit "main"] [lit "main"] = load_from_source (ex_E 5) ex_split_fn [lit "main"] [lit "main"]) by (apply main_not_clean; left; exact I); rewrite X, Lm; reflexivity).
    subst main. clear Lm. apply reached_fn in H. destruct H as [H|[H|[]]]; apply pair_equal_spec in H as [<- <-]; (split; [vm_compute; discriminate|]); intros m L.
    + assert (X : match load_one (ex_E 5) ex_split_fn true [lit "lib"] [lit "main"] with Ok m => m | _ => ex_main ex_single end = m) by (rewrite L; reflexivity). subst m. apply part_check; vm_compute; repeat constructor.
    + assert (X : match load_one (ex_E 5) ex_split_fn true [lit "base"] [lit "lib"] with Ok m => m | _ => ex_main ex_single end = m) by (rewrite L; reflexivity). subst m. apply part_check; vm_compute; repeat constructor.
  - assert (Pn : forall p, parameter (pr_scope (ex_source ex_single_fn)) p -> p = lit "n") by (intros p [f [ps [b [nm' [Q I]]]]]; rewrite F2 in Q; apply assoc_one in Q as [_ Q]; inversion Q; subst ps; destruct I as [<-|[]]; reflexivity).
    split; [|split].
    + intros p P. apply Pn in P. subst p. vm_compute. reflexivity.
    + intros x v y Q Hy P. unfold variable_node in Q. destruct (assoc x _) as [g|] eqn:G; [|discriminate]. destruct (Vr _ (or_intror eq_refl) _ _ G) as [_ [nm' [v' [-> [_ R]]]]]. injection Q as <-. rewrite R in Hy. destruct Hy.
    + intros f ps b nm' y Q Hy N P. rewrite F2 in Q. apply assoc_one in Q as [_ Q]. inversion Q; subst. apply Pn in P. subst y. apply N. left. reflexivity.
  - intro a. split; [split|split].
    + intros x r Q. unfold variable_node in Q. destruct (assoc x _) as [g|] eqn:G; [|discriminate]. destruct (Vr _ (or_introl eq_refl) _ _ G) as [_ [nm' [v' [-> [P R]]]]]. injection Q as <-. eauto.
    + intros f g Q. rewrite F1 in Q. apply assoc_one in Q as [_ ->]. eauto.
    + intros x v _ y _ _. apply Lt.
    + intros f ps b nm' _ y _ _. apply Lt.
  - intros r c n _ _ _ y _ _. apply Lt.
Qed.
(** refuted: a function of a module that is only imported indirectly is not found, although in one file it is *)
Theorem C53_indirect_function_refuted :
  (exists F', yields (ex_E 5) true [] "main" (ex_files [(["main"], "k := 5" ++ nl ++ "fn g(x) x * 2" ++ nl ++ "fn f(x) g(x) + k" ++ nl ++ "---" ++ nl ++ "=f(3)", 1)])%string (Ok [[lit "=((3 * 2) + 5)"]]) F')
  /\ (exists F', yields (ex_E 5) true [] "main" (ex_files [(["main"], "use a" ++ nl ++ "---" ++ nl ++ "=f(3)", 1); (["a"], "use b" ++ nl ++ "fn f(x) g(x) + k" ++ nl ++ "---" ++ nl, 1);
        (["b"], "k := 5" ++ nl ++ "fn g(x) x * 2" ++ nl ++ "---" ++ nl, 1)])%string (Ok [[lit "=(g(3) + 5)"]]) F').
Proof.
  split; eexists; [apply (ex_run_yields _ _ _ _ _ false [["main"]]%string)|apply (ex_run_yields _ _ _ _ _ false [["b"]; ["a"]; ["main"]]%string)]; vm_compute; reflexivity.
Qed.
Print Assumptions C53_indirect_function_refuted.
