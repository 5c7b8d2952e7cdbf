(** * PropProgram: what is written is what the program means (C80). *)
From Verif Require Import Base BaseProofs Csvp SourceCode Ast AstProofs AstLexer AstParser Eval EvalSpec EvalProofs EvalRounds ParsedPlain Options CellParser PropCell Sheet SheetSpec SheetProofs SheetProofs2 SheetProofs3 PropSheet
  PropVariables PropEval ModuleProofs ModuleProofs3 Loader LoaderSpec LoaderProofs3 PropLoader PropCache Targets PropTarget Files Cli PropFiles CompileSpec PropCompile PropModules PropCli ProgramSpec ProgramProofs.

(** ** The meaning is unique *)
Lemma value_of_unique p args here x v v' : value_of p args here x v -> value_of p args here x v' -> v = v'.
Proof.
  intros [nm e H|t f text Hn Hl Hr|e Hn Hb Ha] [nm' e' H'|t' f' text' Hn' Hl' Hr'|e' Hn' Hb' Ha']; try congruence.
  - pose proof (last_binding_unique _ _ _ _ _ _ Hl Hl') as <-. f_equal. eapply refers_inj; eauto.
  - exfalso. exact (Hb' _ _ (proj1 Hl)).
  - exfalso. exact (Hb _ _ (proj1 Hl')).
Qed.
Theorem C80_one_meaning : forall p args here n m m', means p args here n m -> means p args here n m' -> m = m'.
Proof.
  intros p args here. fix IH 4. intros n m m' D D'. destruct D as [n L|x v m W D|x W|l l' op r r' D1 D2|f es ps body nm m A L D|f es ms A F].
  - inversion D'; subst; try discriminate L. reflexivity.
  - inversion D'; subst; [discriminate| |exfalso; eapply H0; eauto]. pose proof (value_of_unique _ _ _ _ _ _ W H0) as <-. exact (IH _ _ _ D H1).
  - inversion D'; subst; [discriminate|exfalso; eapply W; eauto|reflexivity].
  - inversion D'; subst; [discriminate|]. f_equal; [exact (IH _ _ _ D1 H3)|exact (IH _ _ _ D2 H4)].
  - inversion D'; subst; [discriminate| |congruence]. rewrite A in H1. injection H1 as <- <- _. exact (IH _ _ _ D H4).
  - inversion D'; subst; [discriminate|congruence|]. f_equal. clear A H1 D'. revert es ms F ms0 H3. fix IH2 3. intros es ms F ms' F'. destruct F as [|a b es ms Ha F]; inversion F' as [|? b' ? ms0' Hb F0]; subst; [reflexivity|].
    f_equal; [exact (IH _ _ _ Ha Hb)|exact (IH2 _ _ F _ F0)].
Qed.
Print Assumptions C80_one_meaning.

Lemma key_values_plain o : forall kvs acc r, (forall x e, assoc x acc = Some e -> plain e) -> parse_key_values o kvs acc = Ok r -> forall x e, assoc x r = Some e -> plain e.
Proof.
  induction kvs as [|kv kvs IH]; intros acc r Ha H; cbn [parse_key_values] in H; [injection H as <-; exact Ha|].
  destruct (AstParser.split_once c_eq kv) as [[k v]|]; [|discriminate]. destruct (ast_parse o false v) as [n| | |] eqn:P; try discriminate.
  eapply IH; [|exact H]. intros x e Q. destruct (str_eqb_spec x k) as [->|Ne]; [rewrite assoc_insert_same in Q; injection Q as <-; eapply C17_parsed_formulas_are_plain; eauto|]. rewrite assoc_insert_other in Q by exact Ne. eauto.
Qed.
Section Output.
  Variables (p : program) (args : list (str * node)).
  Hypothesis Dp : plain_defs (pr_scope p).
  Hypothesis Sp : plain_sheet (pr_sheet p).
  Hypothesis U : NoDup (map fst (variables (pr_scope p))).
  Hypothesis Fe : fills_expanded (pr_sheet p) = false.
  Hypothesis Ua : NoDup (map fst args).
  Hypothesis Da : forall x e, assoc x args = Some e -> plain e.
  Hypothesis G : good_fills (sheet_rows (pr_sheet p)).
  Notation rows := (sheet_rows (pr_sheet p)).
  Section Expanded.
    Variable p1 : program.
    Hypothesis He : module_eval_fills p = Ok p1.
    Notation sc := (sheet_scope p1 args).
    Lemma scope_plain pos : plain_scope sc (Some pos).
    Proof.
      split.
      - intros x o V. destruct (node_value_of p p1 args U Ua (proj2 Dp) Da Fe He G _ _ _ V) as [v [-> W]]. exists v. split; [reflexivity|].
        destruct W as [nm e H|t f text Hn Hl Hr|e Hn Hb Ha]; [destruct (proj2 Dp _ _ H) as [nm' [v' [Q Pv]]]; inversion Q; subst; exact Pv|exact I|eauto].
      - intros f g H. rewrite (scope_functions p p1 args He) in H. exact (proj1 Dp _ _ H).
    Qed.
    Lemma later_second x : later_param sc x -> second_parameter p x.
    Proof. intros [f [ps [body [nm [H I]]]]]. rewrite (scope_functions p p1 args He) in H. exists f, ps, body, nm. auto. Qed.
    Hypothesis Nc : uncaptured_names p args.
    Lemma scope_hygienic pos : hygienic sc (Some pos).
    Proof.
      destruct Nc as [_ [N2 N3]]. split.
      - intros x v V y Hy _ L. destruct (node_value_of p p1 args U Ua (proj2 Dp) Da Fe He G _ _ _ V) as [v' [Q W]]. injection Q as <-. eapply N2; eauto using later_second.
      - intros f ps body nm H y Hy Hn L. rewrite (scope_functions p p1 args He) in H. eapply N3; eauto using later_second.
    Qed.
    Lemma cell_uncaptured r c n : In r rows -> In c (row_cells r) -> cell_ast c = Some n -> uncaptured sc [] n.
    Proof. intros Hr Hc Ha y Hy _ L. eapply (proj1 Nc); eauto using later_second. Qed.

    (** with flat calls and without circles every formula has its meaning, and the evaluation finds it *)
    Variables (B1 B2 : nat) (rv rf : str -> nat).
    Hypothesis Rb : forall x, rv x < B1.
    Hypothesis Rv : forall here x v y w, value_of p args here x v -> In y (ref_names v) -> value_of p args here y w -> rv y < rv x.
    Hypothesis Fc : forall r c n, In r rows -> In c (row_cells r) -> cell_ast c = Some n -> flat p n.
    Hypothesis Fv : forall here x v, value_of p args here x v -> calls_nothing p v.
    Hypothesis Ff : forall f ps body nm, assoc f (functions (pr_scope p)) = Some (NFn ps body nm) -> flat p body.
    Hypothesis Rf : forall f, rf f < B2.
    Hypothesis Rg : forall f ps body nm g, assoc f (functions (pr_scope p)) = Some (NFn ps body nm) -> In g (call_names body) -> assoc g (functions (pr_scope p)) <> None -> rf g < rf f.
    Notation rf' := (fun f => B1 + rf f).
    Lemma flat_call es f : flat p (NCall es f) <->
      (forall ps body nm, assoc f (functions (pr_scope p)) = Some (NFn ps body nm) -> length es = length ps /\ Forall (calls_nothing p) es) /\ Forall (flat p) es.
    Proof. cbn [flat]. apply and_iff_compat_l. induction es as [|a es IH]; [split; auto|]. rewrite Forall_cons_iff, <- IH. reflexivity. Qed.
    Lemma call_names_call es f g : In g (call_names (NCall es f)) <-> g = f \/ exists e, In e es /\ In g (call_names e).
    Proof.
      cbn [call_names In]. assert (Q : In g ((fix go l := match l with [] => [] | x :: r => call_names x ++ go r end) es) <-> exists e, In e es /\ In g (call_names e)).
      { induction es as [|a es IH]; [split; [intros []|intros [? [[] _]]]|]. rewrite in_app_iff, IH. split.
        - intros [H|[e [H1 H2]]]; [exists a; split; [left; reflexivity|exact H]|exists e; split; [right; exact H1|exact H2]].
        - intros [e [[<-|H1] H2]]; [left; exact H2|right; eauto]. }
      rewrite Q. split; (intros [H|H]; [left; auto|right; exact H]).
    Qed.
    Lemma quiet_flat : forall n, calls_nothing p n -> flat p n.
    Proof.
      induction n using node_induction; intro Hq; try exact I.
      - apply flat_call. split; [intros ps body nm Q; pose proof (Hq n (proj2 (call_names_call _ _ _) (or_introl eq_refl))) as Z; rewrite Z in Q; discriminate Q|].
        rewrite Forall_forall in *. intros e He1. match goal with K : forall x, In x _ -> calls_nothing p x -> _ |- _ => apply (K e He1) end. intros g Hg. apply Hq. apply call_names_call. right. eauto.
      - split; match goal with K : calls_nothing p ?n -> flat p ?n |- flat p ?n => apply K end; intros g Hg; apply Hq; cbn [call_names]; apply in_app_iff; auto.
    Qed.
    Lemma flat_arity : forall n, plain n -> flat p n -> arity_ok sc n.
    Proof.
      induction n using node_induction; intros P Fl; try exact I; try contradiction.
      - apply arity_call. rewrite (scope_functions p p1 args He). apply flat_call in Fl as [F1 F2]. apply plain_call in P. split; [intros ps b nm Q; exact (proj1 (F1 _ _ _ Q))|].
        rewrite Forall_forall in *. auto.
      - destruct P, Fl. split; auto.
    Qed.
    Lemma quiet_below pos : forall n ps, calls_nothing p n -> calls_below sc (Some pos) rf' ps 0 0 n.
    Proof.
      assert (X : forall k x v, rv x < k -> variable_node sc (Some pos) x = Some (Ok v) -> calls_below sc (Some pos) rf' [] 0 0 v).
      { induction k as [|k IH]; intros x v Hx V; [lia|]. destruct (node_value_of p p1 args U Ua (proj2 Dp) Da Fe He G _ _ _ V) as [v' [Q W]]. injection Q as <-. constructor.
        - intros f Hf Nf. rewrite (scope_functions p p1 args He) in Nf. exfalso. apply Nf. exact (Fv _ _ _ W f Hf).
        - intros y w Hy _ V'. apply (IH y); [|exact V']. destruct (node_value_of p p1 args U Ua (proj2 Dp) Da Fe He G _ _ _ V') as [w' [Q W']]. injection Q as <-. specialize (Rv _ _ _ _ _ W Hy W'). lia.
        - intros. lia. }
      intros n ps H. constructor.
      - intros f Hf Nf. rewrite (scope_functions p p1 args He) in Nf. exfalso. apply Nf. exact (H f Hf).
      - intros x v _ _ V. eapply X; [|exact V]. apply Nat.lt_succ_diag_r.
      - intros. lia.
    Qed.
    Lemma flat_nesting pos ps : forall n, plain n -> flat p n -> nesting sc (Some pos) rf' (fun _ => 0) ps 0 n.
    Proof.
      induction n using node_induction; intros P Fl; try exact I; try contradiction.
      - apply nesting_call. apply flat_call in Fl as [F1 F2]. apply plain_call in P. rewrite Forall_forall in H, P, F2. split; [|apply Forall_forall; auto].
        intro Nf. rewrite (scope_functions p p1 args He) in Nf. destruct (assoc n (functions (pr_scope p))) as [g|] eqn:Q; [|congruence]. destruct (proj1 Dp _ _ Q) as [qs [b [nm [-> _]]]].
        destruct (F1 _ _ _ eq_refl) as [_ F3]. rewrite Forall_forall in F3. apply Forall_forall. intros e He1. apply quiet_below. auto.
      - destruct P, Fl. split; auto.
    Qed.
    Lemma known_value x pos : assoc x (variables sc) <> None -> exists w, value_of p args (addr_y pos) x w.
    Proof.
      intro H. assert (exists o, variable_node sc (Some pos) x = Some o) as [o V] by (unfold variable_node; destruct (assoc x (variables sc)) as [[]|]; eauto; congruence).
      destruct (node_value_of p p1 args U Ua (proj2 Dp) Da Fe He G _ _ _ V) as [w [_ W]]. eauto.
    Qed.
    Theorem cell_evaluates r c n pos ord fuel : In r rows -> In c (row_cells r) -> cell_ast c = Some n -> is_order ord -> B1 + B2 < fuel ->
      exists m, means p args (addr_y pos) n m /\ finished p args (addr_y pos) m /\ ast_eval fuel ord sc (Some pos) n = Ok m.
    Proof.
      intros Hr Hc Ha Ho Hfu. assert (Pn : plain n) by (eapply Sp; eauto).
      assert (Vo : forall x v, variable_node sc (Some pos) x = Some (Ok v) -> value_of p args (addr_y pos) x v /\ plain v).
      { intros x v V. destruct (node_value_of p p1 args U Ua (proj2 Dp) Da Fe He G _ _ _ V) as [v' [Q W]]. injection Q as <-. split; [exact W|]. destruct (proj1 (scope_plain pos) x _ V) as [v' [Q Pv]]. injection Q as <-. exact Pv. }
      destruct (C17_evaluation_is_expansion_partial sc (Some pos) rv rf' (fun _ => 0) n (B1 + B2)) as [m [M1 [_ [M3 M4]]]].
      - apply scope_plain.
      - split.
        + intros x v V. destruct (Vo x v V) as [W Pv]. split.
          * intros y Hy _ Ky. destruct (known_value y pos Ky) as [w Ww]. eapply Rv; eauto.
          * intros f Hf Nf. rewrite (scope_functions p p1 args He) in Nf. exfalso. apply Nf. exact (Fv _ _ _ W f Hf).
        + intros f ps b nm Q. rewrite (scope_functions p p1 args He) in Q. split.
          * intros y _ _ _. specialize (Rb y). lia.
          * intros g Hg Ng. rewrite (scope_functions p p1 args He) in Ng. specialize (Rg _ _ _ _ _ Q Hg Ng). lia.
      - apply scope_hygienic.
      - split.
        + intros x v V. destruct (Vo x v V) as [W Pv]. apply flat_arity; [exact Pv|]. apply quiet_flat. eapply Fv; eauto.
        + intros f ps b nm Q. rewrite (scope_functions p p1 args He) in Q. apply flat_arity; [|eapply Ff; eauto]. destruct (proj1 Dp _ _ Q) as [? [? [? [Z Pb]]]]. inversion Z; subst. exact Pb.
      - split; [intro; lia|]. split.
        + intros x v V. destruct (Vo x v V) as [W Pv]. apply flat_nesting; [exact Pv|]. apply quiet_flat. eapply Fv; eauto.
        + intros f ps b nm Q. rewrite (scope_functions p p1 args He) in Q. apply flat_nesting; [|eapply Ff; eauto]. destruct (proj1 Dp _ _ Q) as [? [? [? [Z Pb]]]]. inversion Z; subst. exact Pb.
      - exact Pn.
      - split; [intros y _ _ _; specialize (Rb y); lia|intros f _ _; specialize (Rf f); lia].
      - eapply cell_uncaptured; eauto.
      - apply flat_arity; [exact Pn|eapply Fc; eauto].
      - apply flat_nesting; [exact Pn|eapply Fc; eauto].
      - exists m. split; [eapply expands_means; eauto; exact (proj2 Dp)|]. split; [eapply finished_known; eauto; exact (proj2 Dp)|apply M4; assumption].
    Qed.
  End Expanded.

  Lemma from_eval ev sched p' (how : nat -> cell -> str -> Prop) : main_eval ev sched p args = Ok p' ->
    (forall p1 i r k x c, module_eval_fills p = Ok p1 -> nth_error rows i = Some r -> nth_error (row_cells r) x = Some c ->
       let a := {| addr_x := x; addr_y := first_row rows i + k |} in
       match cell_ast c with
       | None => how (addr_y a) c (parsed_value c)
       | Some n => forall n', ast_eval (ev_fuel ev) (ev_order ev a) (sheet_scope p1 args) (Some a) n = Ok n' -> how (addr_y a) c (c_eq :: show n')
       end) ->
    output_rows p how (sheet_texts (pr_sheet p')).
  Proof.
    intros Me H. destruct (C52_in_place _ _ _ _ _ Me) as [p1 [Mf [L N]]]. destruct (c22_sheet p p1 Mf) as [Ef _]. destruct (C23_expansion _ _ Fe Ef) as [_ [Lt [X _]]].
    unfold output_rows. cbv zeta. unfold sheet_texts. rewrite map_length. split; [congruence|]. intros i r k Hr Hk. destruct (X i r k Hr Hk) as [r1 [Hr1 [Cells _]]].
    change (offset (room rows) rows i) with (first_row rows i) in *. destruct (N _ _ Hr1) as [r2 [Hr2 [_ [_ [_ [Lc Nx]]]]]]. exists (map show_cell (row_cells r2)). split; [rewrite nth_error_map, Hr2; reflexivity|].
    rewrite Cells in *. apply Forall2_nth; [rewrite map_length; auto|]. intros x c t Hc Ht. destruct (Nx x c Hc) as [c' [Hc' [_ [Pv [_ [_ Ev]]]]]]. rewrite nth_error_map, Hc' in Ht. injection Ht as <-.
    pose proof (H p1 i r k x c Mf Hr Hc) as K. cbv zeta in K. unfold show_cell. destruct (cell_ast c) as [n|].
    - destruct Ev as [n' [Ev ->]]. apply K. exact Ev.
    - rewrite Ev, Pv. exact K.
  Qed.
  Lemma eval_written ev sched p' : uncaptured_names p args -> main_eval ev sched p args = Ok p' -> output_rows p (written p args) (sheet_texts (pr_sheet p')).
  Proof.
    intros Nc Me. eapply from_eval; [exact Me|]. intros p1 i r k x c Mf Hr Hc a. unfold written. destruct (cell_ast c) as [n|] eqn:Ac; [|reflexivity].
    intros n' Ev. exists n'. split; [reflexivity|].
    assert (K : forall m, (expands (sheet_scope p1 args) (Some a) n m <-> expands (sheet_scope p1 args) (Some a) n' m) /\ (nothing_known (sheet_scope p1 args) n' -> expands (sheet_scope p1 args) (Some a) n n')).
    { intro m. eapply C17_result_keeps_meaning_partial; [apply scope_plain; exact Mf|apply scope_hygienic; [exact Mf|exact Nc]| |eapply cell_uncaptured; eauto using nth_error_In|exact Ev].
      eapply Sp; eauto using nth_error_In. }
    assert (T1 : forall n m, expands (sheet_scope p1 args) (Some a) n m -> means p args (addr_y a) n m) by (intros; eapply expands_means; eauto; exact (proj2 Dp)).
    assert (T2 : forall n m, means p args (addr_y a) n m -> expands (sheet_scope p1 args) (Some a) n m) by (intros; eapply means_expands; eauto; exact (proj2 Dp)).
    split.
    - intro m. destruct (K m) as [[K1 K2] _]. split; auto.
    - intro Fi. apply T1. apply (K n). eapply finished_known; eauto. exact (proj2 Dp).
  Qed.
End Output.

(** ** C80 *)
(** Any file without imports that compiles: the output has the rows and cells of the source, each row as often as its fill says; what is
    no formula is written as it is; a formula is written as a formula that means the same, and is the meaning if no name that the program
    defines is left in it. *)
Theorem C80_written_partial : forall E use_cache kvs args name F m F' text time p,
  compiles E use_cache args name F (Ok m, F') -> no_object F [name] \/ older_object F [name] ->
  sources F [name] = Some (text, time) -> load_source (e_co E) text = Ok p -> pr_required p = [] ->
  parse_key_values (co_oracle (e_co E)) kvs [] = Ok args ->
  good_fills (sheet_rows (pr_sheet p)) -> uncaptured_names p args ->
  output_rows p (written p args) (sheet_texts (pr_sheet (m_program m))).
Proof.
  intros E uc kvs args name F m F' text time p C No So Ld Rq Kv G Nc.
  destruct (load_plain _ _ _ Ld) as [Dp [Sp Fe]]. pose proof (load_source_unique _ _ _ Ld) as [_ U].
  destruct (compiled_main _ _ _ _ _ _ _ _ _ _ C No So Ld) as (main & sh & order & ld & G1 & sc1 & _ & _ & _ & _ & _ & Mr & Me). rewrite Rq in Mr. cbn [merge_required] in Mr. injection Mr as <-.
  assert (Q : {| pr_scope := pr_scope p; pr_sheet := pr_sheet p; pr_required := pr_required p |} = p) by (destruct p; reflexivity). rewrite Q in Me.
  eapply eval_written; eauto.
  - eapply key_values_unique; [|exact Kv]. constructor.
  - eapply key_values_plain; [|exact Kv]. intros x e Q2. discriminate Q2.
Qed.
Print Assumptions C80_written_partial.
Lemma eval_cells_total ev sc y : forall cs x, (forall i c n, nth_error cs i = Some c -> cell_ast c = Some n ->
    exists m, let a := {| addr_x := x + i; addr_y := y |} in ast_eval (ev_fuel ev) (ev_order ev a) sc (Some a) n = Ok m) -> exists cs', eval_cells ev sc y x cs = Ok cs'.
Proof.
  induction cs as [|c cs IH]; intros x H; cbn [eval_cells]; [eauto|].
  destruct (IH (S x)) as [cs' Q]. { intros i c' n Hi Ha. destruct (H (S i) c' n Hi Ha) as [m Hm]. cbv zeta in *. replace (S x + i) with (x + S i) by lia. eauto. }
  destruct (cell_ast c) as [n|] eqn:Ac.
  - destruct (H 0 c n eq_refl Ac) as [m Hm]. cbv zeta in Hm. rewrite Nat.add_0_r in Hm. rewrite Hm. cbn [bind]. rewrite Q. cbn [bind]. eauto.
  - cbn [bind]. rewrite Q. cbn [bind]. eauto.
Qed.
Lemma mapi_ok {A B E} (f : nat -> A -> outcome E B) : forall l i, (forall j a, nth_error l j = Some a -> exists b, f (i + j) a = Ok b) -> exists l', mapi f i l = map (@Ok E B) l'.
Proof.
  induction l as [|a l IH]; intros i H; cbn [mapi]; [exists []; reflexivity|]. destruct (H 0 a eq_refl) as [b Hb]. rewrite Nat.add_0_r in Hb.
  destruct (IH (S i)) as [l' Q]. { intros j a' Hj. destruct (H (S j) a' Hj) as [b' Hb']. exists b'. rewrite <- Hb'. f_equal. lia. }
  exists (b :: l'). cbn [map]. rewrite Hb, Q. reflexivity.
Qed.
Lemma main_eval_total ev sched p args p1 : module_eval_fills p = Ok p1 ->
  (forall y r x c n, nth_error (sheet_rows (pr_sheet p1)) y = Some r -> nth_error (row_cells r) x = Some c -> cell_ast c = Some n ->
    exists m, let a := {| addr_x := x; addr_y := y |} in ast_eval (ev_fuel ev) (ev_order ev a) (sheet_scope p1 args) (Some a) n = Ok m) ->
  exists p', main_eval ev sched p args = Ok p'.
Proof.
  intros Mf H. unfold main_eval. rewrite Mf. cbn [bind]. unfold eval_spreadsheet.
  destruct (mapi_ok (row_eval ev (sheet_scope p1 args)) (sheet_rows (pr_sheet p1)) 0) as [rows' Q].
  { intros y r Hr. cbn [Nat.add]. unfold row_eval. destruct (eval_cells_total ev (sheet_scope p1 args) y (row_cells r) 0) as [cs' ->]; [|cbn [bind]; eauto]. intros i c n Hi Ha. cbn [Nat.add]. eauto. }
  rewrite (proj2 (par_collect_ok sched _ rows') Q). cbn [bind]. eauto.
Qed.
(** Any file without imports in which nothing is defined by way of itself, calls have the right number of arguments and are not nested in
    arguments of other calls: it compiles, and every formula is written as its meaning. ([C80_one_meaning]: there is only one.)
    Partial: nested calls and names that double as parameters (refuted: C17_variable_left_refuted, C20_capture_refuted), fills that
    reach below row 1000 or stand for nothing (C25), imports (C53). *)
(** evaluating a program that can be evaluated gives what it means *)
Lemma program_meant ev p args B1 B2 : plain_defs (pr_scope p) -> plain_sheet (pr_sheet p) -> NoDup (map fst (variables (pr_scope p))) -> fills_expanded (pr_sheet p) = false ->
  NoDup (map fst args) -> (forall x e, assoc x args = Some e -> plain e) -> (forall a, is_order (ev_order ev a)) -> B1 + B2 < ev_fuel ev ->
  good_fills (sheet_rows (pr_sheet p)) -> uncaptured_names p args -> no_circles p args B1 -> flat_calls p args B2 ->
  forall sched, exists p', main_eval ev sched p args = Ok p' /\ output_rows p (meant p args) (sheet_texts (pr_sheet p')).
Proof.
  intros Dp Sp U Fe Ua Da Or Fu G Nc [rv [Rb Rv]] [Fc [Fv [Ff [rf [Rf Rg]]]]] sched.
  assert (exists p1, module_eval_fills p = Ok p1) as [p1 Mf].
  { unfold module_eval_fills. destruct (eval_fills (pr_sheet p)) as [s|] eqn:Q; [eauto|]. exfalso. apply C24_two_unbounded in Q; [|exact Fe]. destruct Q as [i [j [ri [rj [L [Hi [Hj [[fi [Ui Ai]] Uj]]]]]]]].
    destruct (G i ri Hi ltac:(congruence)) as [_ [_ Last]]. assert (Un : unbounded ri) by (exists fi; auto). specialize (Last Un).
    assert (j < length (sheet_rows (pr_sheet p))) by (apply nth_error_Some; congruence). lia. }
  pose proof (cell_evaluates p args Dp Sp U Fe Ua Da G p1 Mf Nc B1 B2 rv rf Rb Rv Fc Fv Ff Rf Rg) as Ev.
  destruct (main_eval_total ev sched p args p1 Mf) as [p' Me].
  - intros y r x c n Hr Hc Ha. destruct (c22_sheet p p1 Mf) as [Ef _]. destruct (fills_cells _ _ Ef r (nth_error_In _ _ Hr)) as [r0 [I0 Cs]]. rewrite Cs in Hc.
    destruct (Ev r0 c n {| addr_x := x; addr_y := y |} (ev_order ev {| addr_x := x; addr_y := y |}) (ev_fuel ev) I0 (nth_error_In _ _ Hc) Ha (Or _) Fu) as [m [_ [_ Q]]]. exists m. exact Q.
  - exists p'. split; [exact Me|]. eapply from_eval; eauto. intros p2 i r k x c Mf2 Hr Hc a. rewrite Mf in Mf2. injection Mf2 as <-. unfold meant. destruct (cell_ast c) as [n|] eqn:Ac; [|reflexivity].
    intros n' Q. destruct (Ev r c n a (ev_order ev a) (ev_fuel ev) (nth_error_In _ _ Hr) (nth_error_In _ _ Hc) Ac (Or _) Fu) as [m [M1 [M2 M3]]]. rewrite M3 in Q. injection Q as <-. eauto.
Qed.
Theorem C80_meant_partial : forall E use_cache kvs args name F text time p bound1 bound2,
  sources F [name] = Some (text, time) -> no_object F [name] \/ older_object F [name] ->
  (use_cache = true -> e_writable E [name] = true) -> (forall a, is_order (ev_order (e_sheet E) a)) -> bound1 + bound2 < ev_fuel (e_sheet E) ->
  load_source (e_co E) text = Ok p -> pr_required p = [] ->
  parse_key_values (co_oracle (e_co E)) kvs [] = Ok args ->
  good_fills (sheet_rows (pr_sheet p)) -> uncaptured_names p args -> no_circles p args bound1 -> flat_calls p args bound2 ->
  (exists r, compiles E use_cache args name F r)
  /\ forall r, compiles E use_cache args name F r ->
     exists m, fst r = Ok m /\ output_rows p (meant p args) (sheet_texts (pr_sheet (m_program m))).
Proof.
  intros E uc kvs args name F text time p B1 B2 So No Wr Or Fu Ld Rq Kv G Nc Ci Fl.
  destruct (load_plain _ _ _ Ld) as [Dp [Sp Fe]]. pose proof (load_source_unique _ _ _ Ld) as [_ U].
  assert (Ua : NoDup (map fst args)) by (eapply key_values_unique; [|exact Kv]; constructor).
  assert (Da : forall x e, assoc x args = Some e -> plain e) by (eapply key_values_plain; [|exact Kv]; intros x e Q2; discriminate Q2).
  pose proof (program_meant (e_sheet E) p args B1 B2 Dp Sp U Fe Ua Da Or Fu G Nc Ci Fl) as Me.
  set (main := {| m_version := e_version E; m_path := [name]; m_program := p; m_file := [name]; m_dirty := false; m_needs_eval := true |}).
  assert (Lm : load_from_cache_from_filename E F [name] [name] = Ok main) by (rewrite main_not_clean by exact No; unfold load_from_source; rewrite So, Ld; reflexivity).
  assert (Rm : m_requires main = []) by exact Rq.
  split.
  - destruct (run_no_imports_exists (load_one E F uc) main Rm) as [sh R]. eexists. eapply c_run; [exact Lm|exact R|]. destruct (run_no_imports _ main sh TDone Rm R) as [-> _]. apply order_no_imports. exact Rm.
  - intros r C. destruct C as [main' sh t order Lm' R O|e Lm'|Lm']; rewrite Lm in Lm'; try discriminate. injection Lm' as <-.
    rewrite compile_no_imports by (try exact Rm; exact R). unfold finish. cbn [m_needs_eval with_flags main].
    match goal with |- context [main_eval _ _ ?q _] => assert (Q : q = p) by (unfold main; clear; destruct p; reflexivity); rewrite Q; clear Q end.
    destruct (Me (e_sched E)) as [p' [-> Ou]].
    destruct uc.
    + unfold write_object. cbn [m_file with_flags with_program with_scope main]. rewrite (Wr eq_refl). cbn [fst]. eexists. split; [reflexivity|]. exact Ou.
    + cbn [fst]. eexists. split; [reflexivity|]. exact Ou.
Qed.
Print Assumptions C80_meant_partial.

(** The whole way, from the command line to the new CSV file: every run ends with exit status 0, changes no other file, and whoever reads the
    file finds, at the place of each cell of the source, its text or the meaning of its formula. *)
Theorem C80_command_line_partial : forall w a out input S F text time args p bound1 bound2,
  csv_output a out -> p_name (a_input a) = Some input -> (a_verbose a <= 4)%N -> a_backup a = false -> F out = None -> w_writable w out = true ->
  parse_key_values (oracle_of w) (a_key_values a) [] = Ok args ->
  let name := fst (stem_and_extension input) in
  sources S [name] = Some (text, time) -> no_object S [name] \/ older_object S [name] -> (a_no_cache a = false -> e_writable (w_env w) [name] = true) ->
  (forall ad, is_order (ev_order (e_sheet (w_env w)) ad)) -> bound1 + bound2 < ev_fuel (e_sheet (w_env w)) ->
  load_source (e_co (w_env w)) text = Ok p -> pr_required p = [] ->
  good_fills (sheet_rows (pr_sheet p)) -> uncaptured_names p args -> no_circles p args bound1 -> flat_calls p args bound2 ->
  (exists res S' F', runs w a S F res S' F')
  /\ forall res S' F', runs w a S F res S' F' -> res = Exit0 /\ (forall q, q <> out -> F' q = F q)
     /\ exists contents, F' out = Some contents
        /\ forall i r k x c, nth_error (sheet_rows (pr_sheet p)) i = Some r -> k < copies (room (sheet_rows (pr_sheet p))) r -> nth_error (row_cells r) x = Some c ->
             exists t, at_ (csv_read contents) (first_row (sheet_rows (pr_sheet p)) i + k) x = Some t /\ meant p args (first_row (sheet_rows (pr_sheet p)) i + k) c t.
Proof.
  intros w a out input S F text time args p B1 B2 Ho Hi Hv Hb Fo Wo Kv name So No Wr Or Fu Ld Rq G Nc Ci Fl.
  destruct (C80_meant_partial (w_env w) (negb (a_no_cache a)) (a_key_values a) args name S text time p B1 B2 So No ltac:(destruct (a_no_cache a); [discriminate|auto]) Or Fu Ld Rq Kv G Nc Ci Fl) as [[r0 Ex] All].
  assert (exists c, config_of (oracle_of w) a = Ok c) as [c Hc].
  { apply config_accepted. split; [|split; [exact Hv|right; congruence]]. apply (key_values_ok _ _ []). eauto. }
  destruct (config_fields _ _ _ Hc) as (Bk & _ & K & _ & _ & Uc). rewrite Kv in K. injection K as K.
  split.
  - destruct r0 as [r0 S0]. do 3 eexists. eapply r_compiled; [exact Hc|apply csv_chosen; exact Ho|exact Hi|]. fold name. rewrite Uc, <- K. exact Ex.
  - intros res S' F' R. destruct R as [e H|H|c' e H H2|c' o H H2 H3|c' o nm r S1 H H2 H3 C].
    + unfold oracle_of in Hc. congruence.
    + unfold oracle_of in Hc. congruence.
    + exfalso. rewrite (csv_chosen _ _ _ Ho) in H2. discriminate H2.
    + congruence.
    + unfold oracle_of in Hc. rewrite Hc in H. injection H as <-. rewrite (csv_chosen _ _ _ Ho) in H2. injection H2 as <-. rewrite Hi in H3. injection H3 as <-. fold name in C. rewrite Uc, <- K in C.
      destruct (All _ C) as [m [Q Ou]]. cbn [fst] in Q. subst r. rewrite deliver_csv, Bk, Hb. unfold main_program, write_csv. rewrite Fo, csv_write_fresh, Wo. cbn [fst snd as_ended]. split; [reflexivity|].
      split; [intros q Nq; unfold write_file; destruct (file_eqb_spec q out); [contradiction|reflexivity]|].
      set (texts := sheet_texts (pr_sheet (m_program m))) in *. exists (csv_text (padded texts)). split; [unfold write_file; destruct (file_eqb_spec out out); [reflexivity|congruence]|].
      intros i r k x c0 Hr Hk Hx. destruct Ou as [_ Ou]. destruct (Ou i r k Hr Hk) as [ts [Ht Fa]]. destruct (Forall2_nth_l _ _ _ _ _ Fa Hx) as [t [Hxt Mt]]. exists t. split; [|exact Mt].
      assert (W : 0 < width texts).
      { pose proof (width_le texts ts (nth_error_In _ _ Ht)). assert (x < length ts) by (apply nth_error_Some; congruence). lia. }
      rewrite C65_read_back.
      * unfold at_, padded. rewrite nth_error_map, Ht. cbn [option_map]. rewrite nth_error_app1 by (apply nth_error_Some; congruence). exact Hxt.
      * intros y Hy. unfold padded in Hy. apply in_map_iff in Hy as [z [<- Hz]]. destruct z as [|z0 z]; [|discriminate]. cbn [length app]. rewrite Nat.sub_0_r. destruct (width texts); [lia|discriminate].
Qed.
Print Assumptions C80_command_line_partial.

(** ** Non-vacuity: a program with definitions, a function, a fill, a name for the cells of the fill and a value from the command line *)
Lemma name_begins rows t here text : refers rows t here text -> exists c r, text = c :: r /\ (is_ascii_digit c = true \/ is_ascii_upper c = true).
Proof.
  assert (N : forall b n, numeral b n -> exists c r, b = c :: r /\ (is_ascii_digit c = true \/ is_ascii_upper c = true)).
  { intros [|c r] n [D _]; [discriminate|]. cbn in D. apply andb_true_iff in D as [D _]. eauto. }
  assert (C : forall t x y, cell_name t x y -> exists c r, t = c :: r /\ (is_ascii_digit c = true \/ is_ascii_upper c = true)).
  { intros t0 x y [[|c a] [b [-> [[Na La] _]]]]; [contradiction|]. cbn [forallb] in La. apply andb_true_iff in La as [La _]. cbn [app]. eauto. }
  assert (R : forall t y1 y2, rows_name t y1 y2 -> exists c r, t = c :: r /\ (is_ascii_digit c = true \/ is_ascii_upper c = true)).
  { intros t0 y1 y2 [a [b [-> [Na _]]]]. destruct (N _ _ Na) as [c [r [-> H]]]. cbn [app]. eauto. }
  assert (L : forall t x y1 y2, column_name t x y1 y2 -> exists c r, t = c :: r /\ (is_ascii_digit c = true \/ is_ascii_upper c = true)).
  { intros t0 x y1 y2 [a [b [-> [Na _]]]]. destruct (C _ _ _ Na) as [c [r [-> H]]]. cbn [app]. eauto. }
  intros [r [_ H]]. cbv zeta in H. destruct (row_fill r), t; try (destruct H as [[_ H]|[_ H]]); eauto.
Qed.
Definition ex_meaning_source : string := "price := 3
twice := price * 2
fn vat(x, each) x * rate + each
---
![[fill=3]][[var=n]],""=vat(n, price)"",=n * twice
last,=SUM(n)
".
Definition ex_meaning_files : fs := ex_files [(["main"%string], ex_meaning_source, 1)].
Definition ex_p : program := Eval vm_compute in ex_program (lit ex_meaning_source).
Definition ex_args : list (str * node) := Eval vm_compute in match parse_key_values (co_oracle ex_co) [lit "rate=20"] [] with Ok l => l | _ => [] end.
Lemma ex_values here x v : value_of ex_p ex_args here x v ->
  (x = lit "price" /\ v = NInt false None 3) \/ (x = lit "twice" /\ exists k, v = NInfix (NRef (lit "price")) (lit "*") (NInt false None k)) \/ (x = lit "rate" /\ v = NInt false None 20)
  \/ (x = lit "n" /\ exists c r, v = NRef (c :: r) /\ (is_ascii_digit c = true \/ is_ascii_upper c = true)).
Proof.
  intros [nm e H|t f text Hn Hl Hr|e Hn Hb Ha].
  - apply assoc_In in H. vm_compute in H. destruct H as [H|[H|[]]]; inversion H; subst; auto. right; left. split; [reflexivity|eauto].
  - right. right. right. destruct Hl as [Hb _]. apply events_binds in Hb. vm_compute in Hb. destruct Hb as [Hb|[]]. injection Hb as <- <- <-. split; [reflexivity|].
    destruct (name_begins _ _ _ _ Hr) as [c [r [-> Hc]]]. eauto.
  - apply assoc_In in Ha. vm_compute in Ha. destruct Ha as [Ha|[]]. inversion Ha; subst. auto.
Qed.
Lemma ex_functions f ps body nm : assoc f (functions (pr_scope ex_p)) = Some (NFn ps body nm) -> f = lit "vat" /\ ps = [lit "x"; lit "each"]
  /\ body = NInfix (NInfix (NRef (lit "x")) (lit "*") (NRef (lit "rate"))) (lit "+") (NRef (lit "each")).
Proof. intro H. apply assoc_In in H. vm_compute in H. destruct H as [H|[]]. inversion H; subst. auto. Qed.
Lemma ex_cells r c n : In r (sheet_rows (pr_sheet ex_p)) -> In c (row_cells r) -> cell_ast c = Some n ->
  n = NInfix (NRef (lit "n")) (lit "*") (NRef (lit "twice")) \/ n = NCall [NRef (lit "n"); NRef (lit "price")] (lit "vat") \/ n = NCall [NRef (lit "n")] (lit "SUM").
Proof.
  intros Hr Hc Ha. vm_compute in Hr. destruct Hr as [<-|[<-|[]]]; vm_compute in Hc.
  - destruct Hc as [<-|[<-|[<-|[]]]]; vm_compute in Ha; try discriminate Ha; inversion Ha; subst; auto.
  - destruct Hc as [<-|[<-|[]]]; vm_compute in Ha; try discriminate Ha; inversion Ha; subst; auto.
Qed.
Lemma ex_second x : second_parameter ex_p x -> x = lit "each".
Proof. intros [f [ps [body [nm [H I]]]]]. apply ex_functions in H as [_ [-> _]]. destruct I as [<-|[]]. reflexivity. Qed.
Definition ex_rank (x : str) : nat := if str_eqb x (lit "twice") then 1 else if str_eqb x (lit "n") then 1 else 0.
Example C80_nonvacuous : exists m F',
  compiles (ex_E 5) true ex_args (lit "main") ex_meaning_files (Ok m, F') /\ no_object ex_meaning_files [lit "main"]
  /\ sources ex_meaning_files [lit "main"] = Some (lit ex_meaning_source, 1) /\ load_source ex_co (lit ex_meaning_source) = Ok ex_p /\ pr_required ex_p = []
  /\ parse_key_values (co_oracle ex_co) [lit "rate=20"] [] = Ok ex_args
  /\ good_fills (sheet_rows (pr_sheet ex_p)) /\ uncaptured_names ex_p ex_args /\ no_circles ex_p ex_args 2 /\ flat_calls ex_p ex_args 1
  /\ sheet_texts (pr_sheet (m_program m)) = map (map lit)
     [[""; "=((A1 * 20) + 3)"; "=(A1 * (3 * 2))"]; [""; "=((A2 * 20) + 3)"; "=(A2 * (3 * 2))"]; [""; "=((A3 * 20) + 3)"; "=(A3 * (3 * 2))"]; ["last"; "=SUM(A1:A3)"]]%string.
Proof.
  set (run := ex_run (ex_E 5) true ex_args "main" ex_meaning_files false [["main"]]%string).
  exists (ex_module run), (files_after run ex_meaning_files).
  split. { unfold run. apply exec_compile_sound with (n := 100) (last := false) (order := [[lit "main"]]). vm_compute. reflexivity. }
  split; [exact I|]. split; [reflexivity|]. split; [vm_compute; reflexivity|]. split; [reflexivity|]. split; [vm_compute; reflexivity|].
  split.
  { intros [|[|[|i]]] r Hr Hf; try discriminate Hr; vm_compute in Hr; injection Hr as <-; [|exfalso; apply Hf; reflexivity]. split; [vm_compute; lia|]. split; [apply Nat.leb_le; vm_compute; reflexivity|]. intros [f [Q A]]. vm_compute in Q. injection Q as <-. discriminate A. }
  split.
  { split; [|split].
    - intros r c n x Hr Hc Ha Hx S2. apply ex_second in S2. subst x. destruct (ex_cells _ _ _ Hr Hc Ha) as [Qn|[Qn|Qn]]; subst n; vm_compute in Hx; names Hx.
    - intros here y v x W Hx S2. apply ex_second in S2. subst x. destruct (ex_values _ _ _ W) as [[_ ->]|[[_ [k ->]]|[[_ ->]|[_ [c [r [-> Hc]]]]]]]; cbn in Hx; try (destruct Hx as [Hx|[]]); try contradiction.
      + discriminate Hx.
      + injection Hx as -> ->. vm_compute in Hc. destruct Hc; discriminate.
    - intros f ps body nm x H Hx Hn S2. apply ex_second in S2. subst x. apply ex_functions in H as [_ [-> _]]. apply Hn. right. left. reflexivity. }
  split.
  { exists ex_rank. split; [intro x; unfold ex_rank; destruct (str_eqb x _); [lia|]; destruct (str_eqb x _); lia|].
    intros here x v y w W Hy W'. destruct (ex_values _ _ _ W) as [[-> ->]|[[-> [k ->]]|[[-> ->]|[-> [c [r [-> Hc]]]]]]]; cbn in Hy; try (destruct Hy as [<-|[]]); try contradiction.
    - vm_compute. lia.
    - exfalso. destruct (ex_values _ _ _ W') as [[Q _]|[[Q _]|[[Q _]|[Q _]]]]; injection Q as -> _; vm_compute in Hc; destruct Hc; discriminate. }
  split.
  { split; [|split; [|split]].
    - intros r c n Hr Hc Ha. assert (Q : forall f ps b nm, assoc f (functions (pr_scope ex_p)) = Some (NFn ps b nm) -> length ps = 2) by (intros f ps b nm H; apply ex_functions in H as [_ [-> _]]; reflexivity).
      destruct (ex_cells _ _ _ Hr Hc Ha) as [Qn|[Qn|Qn]]; subst n; cbn [flat]; [tauto| |].
      + split; [|auto]. intros ps b nm H. apply Q in H. split; [symmetry; exact H|]. repeat constructor; intros f [].
      + split; [|auto]. intros ps b nm H. apply ex_functions in H as [H _]. discriminate H.
    - intros here x v W f Hf. destruct (ex_values _ _ _ W) as [[_ ->]|[[_ [k ->]]|[[_ ->]|[_ [c [r [-> _]]]]]]]; destruct Hf.
    - intros f ps body nm H. apply ex_functions in H as [_ [_ ->]]. cbn. tauto.
    - exists (fun _ => 0). split; [intro; lia|]. intros f ps body nm g H Hg _. apply ex_functions in H as [_ [_ ->]]. destruct Hg. }
  vm_compute. reflexivity.
Qed.
(** the same program, from the command line: all conditions of [C80_command_line_partial] *)
Example C80_command_line_nonvacuous : exists S' F' contents, runs ex_world (ex_cli ["rate=20"]%string false false 0 "out.csv") ex_meaning_files (fun _ => None) Exit0 S' F'
  /\ F' (file_named "out.csv") = Some contents /\ at_ (csv_read contents) 1 2 = Some (lit "=(A2 * (3 * 2))").
Proof.
  destruct C80_nonvacuous as (m & F1 & _ & No & So & Ld & Rq & Kv & G & Nc & Ci & Fl & _).
  destruct (C80_command_line_partial ex_world (ex_cli ["rate=20"]%string false false 0 "out.csv") (file_named "out.csv") (lit "main.csvpp") ex_meaning_files (fun _ => None)
    (lit ex_meaning_source) 1 ex_args ex_p 2 1) as [[res [S' [F' R]]] All]; auto.
  - split; [reflexivity|]. split; reflexivity.
  - cbn. lia.
  - intros ad k l. apply Permutation.Permutation_refl.
  - cbn. lia.
  - destruct (All _ _ _ R) as [-> [_ [contents [Q At]]]]. exists S', F', contents. split; [exact R|]. split; [exact Q|].
    destruct (nth_error (sheet_rows (pr_sheet ex_p)) 0) as [r|] eqn:Hr; [|discriminate Hr]. destruct (nth_error (row_cells r) 2) as [c|] eqn:Hc; [|injection Hr as <-; discriminate Hc].
    destruct (At 0 r 1 2 c Hr) as [t [A M]]; [injection Hr as <-; vm_compute; lia|exact Hc|].
    change (first_row (sheet_rows (pr_sheet ex_p)) 0 + 1) with 1 in *. rewrite A. f_equal. injection Hr as <-. injection Hc as <-. unfold meant in M. cbn [cell_ast] in M. destruct M as [n' [M [_ ->]]].
    rewrite (C80_one_meaning _ _ _ _ _ (NInfix (NRef (lit "A2")) (lit "*") (NInfix (NInt false None 3) (lit "*") (NInt false None 2))) M); [vm_compute; reflexivity|].
    assert (Nv : forall c s v, (is_ascii_digit c = true \/ is_ascii_upper c = true) -> ~ value_of ex_p ex_args 1 (c :: s) v).
    { intros ch s v Hch W. destruct (ex_values _ _ _ W) as [[E0 _]|[[E0 _]|[[E0 _]|[E0 _]]]]; injection E0 as -> _; vm_compute in Hch; destruct Hch; discriminate. }
    apply m_infix.
    + eapply m_name; [|apply m_unknown; intros v; apply (Nv 65%N); right; reflexivity].
      eapply v_sheet with (t := TCell 0 0); [reflexivity| |].
      * { split; [do 2 eexists; repeat split; reflexivity|]. intros t0 f0 B0. left. apply events_binds in B0. vm_compute in B0. destruct B0 as [B0|[]]. injection B0 as <- _. reflexivity. }
      * eexists. split; [reflexivity|]. cbn. left. split; [vm_compute; lia|]. apply (cell_name_show 0 1).
    + eapply m_name; [eapply v_code; reflexivity|]. apply m_infix; [|apply m_leaf; reflexivity]. eapply m_name; [eapply v_code; reflexivity|apply m_leaf; reflexivity].
Qed.
