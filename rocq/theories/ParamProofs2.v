(** * ParamProofs2: the names of parameters, for whole programs. *)
From Verif Require Import Base BaseProofs Csvp Ast AstProofs Eval EvalSpec EvalProofs EvalRounds EvalAgree ParsedPlain Options CellParser Sheet SheetSpec SheetProofs SheetProofs2 SheetProofs3
  Loader ModuleProofs3 PropVariables SameSpec SameProofs RenameSpec RenameProofs ParamProofs.

Section Program.
  Variables (ev : eval_env) (sched : list nat) (p : program) (ext : list (str * node)).
  Hypothesis Hord : forall a, is_order (ev_order ev a).
  Hypothesis U1 : NoDup (map fst (variables (pr_scope p))).
  Hypothesis U2 : NoDup (map fst ext).
  Hypothesis Dp : plain_defs (pr_scope p).
  Hypothesis Sp : plain_sheet (pr_sheet p).
  Hypothesis Ep : forall x e, assoc x ext = Some e -> plain e.
  Let kv x := reads_name p ext x \/ place_name x.
  Let kf f := calls_name p ext f.
  Let q s := {| pr_scope := pr_scope p; pr_sheet := s; pr_required := pr_required p |}.

  (** what a name stands for where a cell is evaluated *)
  Lemma scope_values s x a v : variable_node (sheet_scope (q s) ext) (Some a) x = Some (Ok v) ->
    (exists n, assoc x (variables (pr_scope p)) = Some (NVar n (VAst v))) \/ (exists y, v = NRef y /\ place_name y) \/ assoc x ext = Some v.
  Proof.
    intro Hv. unfold variable_node in Hv. rewrite sheet_scope_assoc in Hv by assumption. cbn [pr_scope pr_sheet q] in Hv.
    destruct (assoc x (variables (pr_scope p))) as [g|] eqn:E1.
    - destruct (proj2 Dp _ _ E1) as [n [w [-> _]]]. left. cbn [into_ast] in Hv. exists n. congruence.
    - right. destruct (assoc x (sheet_variables s)) as [g|] eqn:E2.
      + left. destruct (existsb (fun e => str_eqb (snd e) x) (events 0 (sheet_rows s))) eqn:Ex.
        * apply existsb_exists in Ex as [[[t f] z] [Hz Ez]]. cbn [snd] in Ez. destruct (str_eqb_spec z x); [subst z|discriminate Ez].
          apply events_binds in Hz. destruct (last_binding_exists _ _ _ _ Hz) as [t' [f' L]]. rewrite (sheet_variables_last _ _ _ _ L) in E2. injection E2 as <-.
          assert (I : exists w, value_at t' f' x = NVar x w /\ forall m, w <> VAst m) by (destruct t', f'; cbn [value_at]; eexists; (split; [reflexivity|]); intros m X; discriminate X).
          destruct I as [w [Ew Nw]]. rewrite Ew in Hv. assert (Hv' : into_ast w (Some a) = Ok v) by congruence. clear Hv.
          destruct w; cbn [into_ast] in Hv'; try (destruct (fill_contains _ _)); try (injection Hv' as <-); try (eexists; split; [reflexivity|]; clear).
          -- apply place_address.
          -- destruct (Nw _ eq_refl).
          -- apply place_address.
          -- right. left. do 3 eexists. apply show_col_range_spec.
          -- right. right. do 2 eexists. apply show_row_spec.
          -- right. right. do 2 eexists. apply show_row_spec.
          -- right. right. do 2 eexists. apply show_row_range_spec.
        * rewrite sheet_variables_none in E2; [discriminate E2|]. intros t f Hb. apply events_binds in Hb.
          assert (Y : existsb (fun e => str_eqb (snd e) x) (events 0 (sheet_rows s)) = true); [|congruence]. apply existsb_exists. eexists. split; [exact Hb|]. cbn [snd].
          destruct (str_eqb_spec x x); congruence.
      + right. destruct (assoc x ext) as [g|] eqn:E3; [|discriminate Hv]. specialize (Ep _ _ E3). destruct g; try (injection Hv as <-; reflexivity). destruct Ep.
  Qed.
  Lemma scope_values_plain s x a v : variable_node (sheet_scope (q s) ext) (Some a) x = Some (Ok v) -> plain v.
  Proof.
    intro Hv. destruct (scope_values _ _ _ _ Hv) as [[n H]|[[y [-> _]]|H]]; [|exact I|eauto]. destruct (proj2 Dp _ _ H) as [n' [w [E W]]]. congruence.
  Qed.
  Lemma scope_values_within s x a v : variable_node (sheet_scope (q s) ext) (Some a) x = Some (Ok v) -> within kv kf v.
  Proof.
    intro Hv. destruct (scope_values _ _ _ _ Hv) as [[n H]|[[y [-> P]]|H]].
    - assert (W : within kv kf (NVar n (VAst v))) by (apply within_formula; right; left; eauto). exact W.
    - split; [|intros ? []]. intros z [<-|[]]. right. exact P.
    - apply within_formula. right. right. eauto.
  Qed.
  Lemma scope_functions_within s f g : kf f -> assoc f (functions (sheet_scope (q s) ext)) = Some g -> within_function kv kf g.
  Proof.
    intros Kf Hg. cbn [functions sheet_scope merge_variables pr_scope q] in Hg.
    assert (W1 : forall z, In z (ref_names g) -> In z (parameters_of g) \/ kv z).
    { intros z Hz. destruct (in_dec (list_eq_dec N.eq_dec) z (parameters_of g)) as [I|I]; [left; exact I|]. right. left. right. exists f, g. auto. }
    assert (W2 : forall z, In z (call_names g) -> kf z) by (intros z Hz; right; exists f, g; auto).
    destruct g; try (split; [|exact W2]; intros z Hz; destruct (W1 z Hz) as [[]|K]; exact K).
    split; [exact W1|exact W2].
  Qed.

  Variables (f0 a b : str) (ps : list str) (body : node) (sc' : scope).
  Hypothesis Ha : ~ kv a.
  Hypothesis Hb : ~ kv b.
  Hypothesis Hv : variables sc' = variables (pr_scope p).
  Hypothesis Hg : assoc f0 (functions (pr_scope p)) = Some (NFn ps body f0).
  Hypothesis Hg' : assoc f0 (functions sc') = Some (NFn (map (swap a b) ps) (rename (swaps a b) body) f0).
  Hypothesis Hf : forall f, f <> f0 -> assoc f (functions sc') = assoc f (functions (pr_scope p)).
  Hypothesis Nm : forall f g, assoc f (functions (pr_scope p)) = Some g -> exists ps body, g = NFn ps body f.
  Definition params_error (e : module_error) : module_error :=
    match e with CellEval at_ k => CellEval at_ (other_params f0 a b ps body k) | _ => e end.
  Let p2 := {| pr_scope := sc'; pr_sheet := pr_sheet p; pr_required := pr_required p |}.
  Theorem main_params : omap pr_sheet (main_eval ev sched p2 ext) = rmap (fun s => s) params_error (omap pr_sheet (main_eval ev sched p ext)).
  Proof.
    unfold main_eval, module_eval_fills. cbn [pr_sheet p2]. destruct (eval_fills (pr_sheet p)) as [s|] eqn:Ef; [|reflexivity]. cbn [bind].
    unfold eval_spreadsheet. cbn [pr_sheet pr_required pr_scope p2].
    set (p3 := {| pr_scope := sc'; pr_sheet := s; pr_required := pr_required p |}). change {| pr_scope := pr_scope p; pr_sheet := s; pr_required := pr_required p |} with (q s).
    set (sc2 := sheet_scope p3 ext). set (sc1 := sheet_scope (q s) ext).
    assert (R : forall k r, In r (sheet_rows s) -> row_eval ev sc2 k r = rmap (fun x => x) params_error (row_eval ev sc1 k r)).
    { intros k r Hr. destruct (fills_cells _ _ Ef r Hr) as [r0 [Hr0 Ec]]. unfold row_eval. rewrite Ec.
      assert (W : forall c n, In c (row_cells r0) -> cell_ast c = Some n -> within kv kf n /\ plain n).
      { intros c n Hc Hn. split; [apply within_formula; left; eauto|exact (Sp _ _ _ Hr0 Hc Hn)]. }
      clear Ec. assert (X : forall cs x, (forall c n, In c cs -> cell_ast c = Some n -> within kv kf n /\ plain n) -> eval_cells ev sc2 k x cs = rmap (fun x => x) params_error (eval_cells ev sc1 k x cs)).
      { clear W Hr0 Hr. induction cs as [|c cs IH]; intros x W; [reflexivity|]. cbn [eval_cells]. rewrite IH by (intros d n Hd; apply W; right; exact Hd).
        destruct (cell_ast c) as [n|] eqn:En; [|destruct (eval_cells ev sc1 k (S x) cs); reflexivity]. destruct (W c n (or_introl eq_refl) En) as [Wn Pn].
        set (at_ := {| addr_x := x; addr_y := k |}). assert (Q : ast_eval (ev_fuel ev) (ev_order ev at_) sc2 (Some at_) n = rmap (fun x => x) (other_params f0 a b ps body) (ast_eval (ev_fuel ev) (ev_order ev at_) sc1 (Some at_) n)).
        { unfold ast_eval. apply loop_params with (kv := kv) (kf := kf); try assumption; try apply Hord.
          - intro y. unfold sc2, sc1. rewrite !sheet_scope_assoc; try assumption; cbn [pr_scope p3 q]; rewrite Hv; [reflexivity|assumption].
          - intros y v _ H. eapply scope_values_within. exact H.
          - intros f h K H. eapply scope_functions_within; [exact K|exact H].
          - intros y v H. eapply scope_values_plain. exact H.
          - intros f h H. destruct (Nm f h H) as [ps0 [body0 ->]]. exists ps0, body0. split; [reflexivity|]. destruct (proj1 Dp _ _ H) as [? [? [? [E0 P0]]]]. inversion E0; subst. exact P0. }
        rewrite Q. destruct (ast_eval _ _ sc1 _ n); cbn [rmap bind]; try reflexivity. destruct (eval_cells ev sc1 k (S x) cs); reflexivity. }
      rewrite X by exact W. destruct (eval_cells ev sc1 k 0 (row_cells r0)); reflexivity. }
    rewrite (mapi_eq _ _ _ 0 R). rewrite <- map_mapi, par_collect_rmap. destruct (par_collect sched _); cbn [rmap bind omap]; rewrite ?map_id; reflexivity.
  Qed.
End Program.
