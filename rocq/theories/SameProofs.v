(** * SameProofs: programs that are the same for their users. *)
From Verif Require Import Base BaseProofs Csvp SourceCode Ast AstProofs AstParser Eval EvalSpec EvalProofs EvalRounds EvalAgree Options CellParser
  Sheet SheetSpec SheetProofs SheetProofs2 SheetProofs3 SourceSpec CodeSectionSpec ModuleProofs ModuleProofs3 PropVariables SameSpec.

(** ** Sheets without the places of their cells *)
Definition no_field : field := {| f_address := {| addr_x := 0; addr_y := 0 |}; f_value := []; f_positions := [] |}.
Definition strip_cell (c : cell) : cell :=
  {| cell_ast := cell_ast c; cell_field := no_field; parsed_value := parsed_value c; cell_options := cell_options c; cell_var := cell_var c |}.
Definition strip_row (r : row) : row :=
  {| row_cells := map strip_cell (row_cells r); row_options := row_options r; row_fill := row_fill r; row_var := row_var r |}.
Definition strip_sheet (s : spreadsheet) : spreadsheet := {| sheet_rows := map strip_row (sheet_rows s); fills_expanded := fills_expanded s |}.
Definition omap {E A B} (f : A -> B) (x : outcome E A) : outcome E B := match x with Ok a => Ok (f a) | Err e => Err e | Panic => Panic | NoFuel => NoFuel end.

Lemma map_eq_Forall2 {A B} (R : A -> A -> Prop) (f : A -> B) : (forall a b, f a = f b <-> R a b) -> forall l l', map f l = map f l' <-> Forall2 R l l'.
Proof.
  intros H. induction l as [|a l IH]; intros [|b l']; cbn [map]; (split; intro X); try discriminate X; try (inversion X; fail); try constructor; try (inversion X; subst).
  - apply H. congruence.
  - apply IH. congruence.
  - f_equal; [apply H; assumption|apply IH; assumption].
Qed.
Lemma strip_cell_alike c c' : strip_cell c = strip_cell c' <-> alike_cell c c'.
Proof. unfold strip_cell, alike_cell. split; [intros [= H1 H2 H3 H4]; auto|intros [-> [-> [-> ->]]]; reflexivity]. Qed.
Lemma strip_row_alike r r' : strip_row r = strip_row r' <-> alike_row r r'.
Proof.
  unfold strip_row, alike_row. rewrite <- (map_eq_Forall2 _ _ strip_cell_alike). split; [intros [= H1 H2 H3 H4]; auto|intros [-> [-> [-> ->]]]; reflexivity].
Qed.
Lemma strip_sheet_alike s s' : strip_sheet s = strip_sheet s' <-> alike_sheet s s'.
Proof. unfold strip_sheet, alike_sheet. rewrite <- (map_eq_Forall2 _ _ strip_row_alike). split; [intros [= H1 H2]; auto|intros [-> ->]; reflexivity]. Qed.
Lemma alike_refl s : alike_sheet s s.
Proof. apply strip_sheet_alike. reflexivity. Qed.
Lemma same_result_strip {E A} (f : A -> spreadsheet) (r r' : outcome E A) :
  omap (fun a => strip_sheet (f a)) r = omap (fun a => strip_sheet (f a)) r' <-> same_result f r r'.
Proof.
  destruct r, r'; cbn [omap same_result]; (split; intro H); try discriminate H; try contradiction; try congruence; auto.
  - apply strip_sheet_alike. congruence.
  - f_equal. apply strip_sheet_alike. exact H.
Qed.

(** ** Evaluation does not look at the places *)
Lemma strip_cells_eval ev sc y : forall cs x, eval_cells ev sc y x (map strip_cell cs) = omap (map strip_cell) (eval_cells ev sc y x cs).
Proof.
  induction cs as [|c cs IH]; intro x; [reflexivity|]. cbn [map eval_cells]. cbn [cell_ast strip_cell].
  match goal with |- bind ?a _ = omap _ (bind ?a _) => destruct a as [ast|e| |] end; cbn [bind omap]; auto.
  rewrite IH. destruct (eval_cells ev sc y (S x) cs); reflexivity.
Qed.
Lemma strip_row_eval ev sc y r : row_eval ev sc y (strip_row r) = omap strip_row (row_eval ev sc y r).
Proof. unfold row_eval. cbn [row_cells strip_row]. rewrite strip_cells_eval. destruct (eval_cells ev sc y 0 (row_cells r)); reflexivity. Qed.
Lemma mapi_map {A B C} (f : nat -> B -> C) (g : A -> B) : forall l i, mapi f i (map g l) = mapi (fun i a => f i (g a)) i l.
Proof. induction l as [|a l IH]; intro i; cbn [map mapi]; [reflexivity|]. rewrite IH. reflexivity. Qed.
Lemma map_mapi {A B C} (f : nat -> A -> B) (g : B -> C) : forall l i, map g (mapi f i l) = mapi (fun i a => g (f i a)) i l.
Proof. induction l as [|a l IH]; intro i; cbn [map mapi]; [reflexivity|]. rewrite IH. reflexivity. Qed.
Lemma mapi_eq {A B} (f g : nat -> A -> B) : forall l i, (forall k a, In a l -> f k a = g k a) -> mapi f i l = mapi g i l.
Proof. induction l as [|a l IH]; intros i H; cbn [mapi]; [reflexivity|]. rewrite (H i a (or_introl eq_refl)), IH; [reflexivity|]. intros. apply H. right. assumption. Qed.
Lemma first_failure_omap {E A B} (g : A -> B) (xs : list (outcome E A)) : forall sched,
  first_failure (map (omap g) xs) sched = option_map (omap g) (first_failure xs sched).
Proof.
  induction sched as [|i sched IH]; [reflexivity|]. cbn [first_failure]. rewrite nth_error_map. destruct (nth_error xs i) as [x|]; cbn [option_map]; [|exact IH].
  replace (is_ok (omap g x)) with (is_ok x) by (destruct x; reflexivity). destruct (is_ok x); [exact IH|reflexivity].
Qed.
Lemma collect_omap {E A B} (g : A -> B) : forall xs : list (outcome E A), collect (map (omap g) xs) = omap (map g) (collect xs).
Proof. induction xs as [|[x| | |] xs IH]; cbn [map collect omap bind]; auto. rewrite IH. destruct (collect xs); reflexivity. Qed.
Lemma par_collect_omap {E A B} (g : A -> B) sched (xs : list (outcome E A)) : par_collect sched (map (omap g) xs) = omap (map g) (par_collect sched xs).
Proof.
  unfold par_collect. rewrite first_failure_omap. destruct (first_failure xs sched) as [[x| | |]|]; cbn [option_map fail_as omap]; auto. apply collect_omap.
Qed.
Lemma map_repeat {A B} (f : A -> B) a : forall n, map f (repeat a n) = repeat (f a) n.
Proof. induction n as [|n IH]; cbn [repeat map]; [reflexivity|]. rewrite IH. reflexivity. Qed.
Lemma strip_variables s : sheet_variables (strip_sheet s) = sheet_variables s.
Proof.
  unfold sheet_variables. cbn [sheet_rows strip_sheet]. generalize 0, (@nil (str * node)). induction (sheet_rows s) as [|r rs IH]; intros y vars; [reflexivity|].
  cbn [map row_variables]. rewrite IH. f_equal. cbn [strip_row row_var row_cells]. unfold row_reference. cbn [row_fill strip_row].
  generalize (match row_var r with Some x => assoc_insert x match row_fill r with Some f => NVar x (VRowRelative y f) | None => NVar x (VRow y) end vars | None => vars end).
  generalize 0. induction (row_cells r) as [|c cs IHc]; intros i v; [reflexivity|]. cbn [map cell_variables]. rewrite IHc. reflexivity.
Qed.
Lemma strip_fills s : eval_fills (strip_sheet s) = option_map strip_sheet (eval_fills s).
Proof.
  unfold eval_fills. cbn [fills_expanded strip_sheet]. destruct (fills_expanded s) eqn:Fe; [reflexivity|].
  assert (M : has_multiple_infinite_expands (strip_sheet s) = has_multiple_infinite_expands s).
  { unfold has_multiple_infinite_expands. cbn [sheet_rows strip_sheet]. generalize false. induction (sheet_rows s) as [|r rs IH]; intro saw; [reflexivity|]. cbn [map multiple_infinite].
    change (is_infinite (strip_row r)) with (is_infinite r). destruct (is_infinite r), saw; auto. }
  rewrite M. destruct (has_multiple_infinite_expands s); [reflexivity|]. cbn [option_map]. f_equal. unfold strip_sheet at 3. cbn [sheet_rows fills_expanded]. f_equal.
  assert (L : rows_left_over (strip_sheet s) = rows_left_over s).
  { unfold rows_left_over. f_equal. cbn [sheet_rows strip_sheet]. match goal with |- fold_left ?f _ _ = _ => set (g := f) end. generalize 0 at 1 2. induction (sheet_rows s) as [|r rs IH]; intro k; [reflexivity|]. cbn [map fold_left]. apply IH. }
  rewrite L. generalize (rows_left_over s). intro left. cbn [sheet_rows strip_sheet].
  assert (X : forall rs acc k, fold_left (expand_step left) (map strip_row rs) (map strip_row acc, k)
     = let (a, k') := fold_left (expand_step left) rs (acc, k) in (map strip_row a, k')).
  { induction rs as [|r rs IH]; intros acc k; [reflexivity|]. cbn [map fold_left]. unfold expand_step at 2 4. cbn [row_fill strip_row].
    destruct (row_fill r) as [f|].
    - cbv zeta. rewrite <- IH. f_equal. f_equal. rewrite map_app, map_repeat. reflexivity.
    - rewrite <- IH. f_equal. f_equal. rewrite map_app. reflexivity. }
  specialize (X (sheet_rows s) [] 0). cbn [map] in X. rewrite X. destruct (fold_left (expand_step left) (sheet_rows s) ([], 0)). reflexivity.
Qed.
Definition strip_program (p : program) : program := {| pr_scope := pr_scope p; pr_sheet := strip_sheet (pr_sheet p); pr_required := pr_required p |}.
Lemma strip_main_eval ev sched p ext : main_eval ev sched (strip_program p) ext = omap strip_program (main_eval ev sched p ext).
Proof.
  unfold main_eval, module_eval_fills. cbn [pr_sheet strip_program]. rewrite strip_fills. destruct (eval_fills (pr_sheet p)) as [s|]; [|reflexivity]. cbn [option_map bind].
  unfold eval_spreadsheet, sheet_scope. cbn [pr_scope pr_sheet pr_required]. rewrite strip_variables. cbn [sheet_rows strip_sheet fills_expanded].
  rewrite mapi_map. set (sc := merge_variables _ ext).
  rewrite (mapi_eq _ (fun i a => omap strip_row (row_eval ev sc i a))) by (intros; apply strip_row_eval).
  rewrite <- map_mapi, par_collect_omap. destruct (par_collect sched (mapi (row_eval ev sc) 0 (sheet_rows s))); reflexivity.
Qed.

(** ** Evaluation only looks at the names that occur *)
Lemma pair_in {A} (l : list (str * A)) x v : assoc x l = Some v -> In (x, v) l.
Proof. apply assoc_In. Qed.
Lemma place_address a : place_name (show_address a).
Proof. left. destruct a as [x y]. exists x, y. apply show_address_spec. Qed.
Lemma into_ast_within (kv kf : str -> Prop) v a m : (forall x, place_name x -> kv x) -> into_ast v (Some a) = Ok m ->
  (forall n, v = VAst n -> within kv kf n) -> within kv kf m.
Proof.
  intros Hp H Hn. destruct v; cbn [into_ast] in H; try (destruct (fill_contains _ _)); try (injection H as <-); try (split; [|intros ? []]; intros x [<-|[]]; apply Hp; clear).
  - apply place_address.
  - apply Hn. reflexivity.
  - apply place_address.
  - right. left. do 3 eexists. apply show_col_range_spec.
  - right. right. do 2 eexists. apply show_row_spec.
  - right. right. do 2 eexists. apply show_row_spec.
  - right. right. do 2 eexists. apply show_row_range_spec.
Qed.

Section Same.
  Variables (ev : eval_env) (sched : list nat) (p p' : program) (ext ext' : list (str * node)).
  Hypothesis Hord : forall a, is_order (ev_order ev a).
  Hypothesis U1 : NoDup (map fst (variables (pr_scope p))).
  Hypothesis U2 : NoDup (map fst ext).
  Hypothesis U3 : NoDup (map fst (variables (pr_scope p'))).
  Hypothesis U4 : NoDup (map fst ext').
  Hypothesis Hs : pr_sheet p' = pr_sheet p.
  Hypothesis Ha : same_where_read p ext p' ext'.

  Let kv x := reads_name p ext x \/ place_name x.
  Let kf f := calls_name p ext f.

  Lemma within_formula n : formula_in p ext n -> within kv kf n.
  Proof. intro H. split; intros x Hx; [left; left|left]; exists n; auto. Qed.

  (** the rows of the expanded sheet evaluate alike in every scope that agrees on the names considered *)
  Lemma rows_agree s sc' : let q := {| pr_scope := pr_scope p; pr_sheet := s; pr_required := pr_required p |} in eval_fills (pr_sheet p) = Some s ->
    (forall x, kv x -> assoc x (variables sc') = assoc x (variables (sheet_scope q ext))) ->
    (forall f, kf f -> assoc f (functions sc') = assoc f (functions (sheet_scope q ext))) ->
    forall k r, In r (sheet_rows s) -> row_eval ev sc' k r = row_eval ev (sheet_scope q ext) k r.
  Proof.
    intros q Ef A B. intros k r Hr. destruct (fills_cells _ _ Ef r Hr) as [r0 [Hr0 Ec]]. unfold row_eval. f_equal. rewrite Ec.
      assert (W : forall c n, In c (row_cells r0) -> cell_ast c = Some n -> within kv kf n) by (intros c n Hc Hn; apply within_formula; left; eauto).
      clear Ec. revert W. generalize 0. induction (row_cells r0) as [|c cs IH]; intros x W; [reflexivity|]. cbn [eval_cells].
      rewrite IH by (intros d n Hd; apply W; right; exact Hd).
      destruct (cell_ast c) as [n|] eqn:En; [|reflexivity]. unfold ast_eval.
      rewrite (eval_agree kv kf (sheet_scope q ext)); [reflexivity|exact A|exact B| | |apply Hord|apply (W c n); [left; reflexivity|exact En]].
      - intros y v Ky Hv. unfold variable_node in Hv. rewrite sheet_scope_assoc in Hv by assumption. cbn [pr_scope pr_sheet q] in Hv.
        assert (G : forall g, formula_in p ext g -> match g with NVar _ v => Some (into_ast v (Some {| addr_x := x; addr_y := k |})) | n => Some (Ok n) end = Some (Ok v) -> within kv kf v).
        { intros g Hg H. pose proof (within_formula g Hg) as Wg. destruct g; try (injection H as <-; exact Wg).
          injection H as H. eapply into_ast_within; [|exact H|]; [intros z Hz; right; exact Hz|]. intros m ->. exact Wg. }
        destruct (assoc y (variables (pr_scope p))) as [g|] eqn:E1; [apply (G g); [right; left; eauto|exact Hv]|].
        destruct (assoc y (sheet_variables s)) as [g|] eqn:E2; [|destruct (assoc y ext) as [g|] eqn:E3; [apply (G g); [right; right; eauto|exact Hv]|discriminate Hv]].
        destruct (existsb (fun e => str_eqb (snd e) y) (events 0 (sheet_rows s))) eqn:Ex.
        + apply existsb_exists in Ex as [[[t f] z] [Hz Ez]]. cbn [snd] in Ez. destruct (str_eqb_spec z y); [subst z|discriminate Ez].
          apply events_binds in Hz. destruct (last_binding_exists _ _ _ _ Hz) as [t' [f' L]]. rewrite (sheet_variables_last _ _ _ _ L) in E2. injection E2 as <-.
          assert (I : exists w, value_at t' f' y = NVar y w /\ forall m, w <> VAst m) by (destruct t', f'; cbn [value_at]; eexists; (split; [reflexivity|]); intros m X; discriminate X).
          destruct I as [w [Ew Nw]]. rewrite Ew in Hv. assert (Hv' : into_ast w (Some {| addr_x := x; addr_y := k |}) = Ok v) by congruence.
          eapply into_ast_within; [|exact Hv'|]; [intros ? ?; right; assumption|intros m X; destruct (Nw m X)].
        + rewrite sheet_variables_none in E2; [discriminate E2|]. intros t f Hb. apply events_binds in Hb.
          assert (Y : existsb (fun e => str_eqb (snd e) y) (events 0 (sheet_rows s)) = true); [|congruence]. apply existsb_exists. eexists. split; [exact Hb|]. cbn [snd].
          destruct (str_eqb_spec y y); congruence.
      - intros f g Kf Hg. cbn [functions sheet_scope merge_variables pr_scope q] in Hg.
        assert (W1 : forall z, In z (ref_names g) -> In z (parameters_of g) \/ kv z).
        { intros z Hz. destruct (in_dec (list_eq_dec N.eq_dec) z (parameters_of g)) as [I|I]; [left; exact I|]. right. left. right. exists f, g. auto. }
        assert (W2 : forall z, In z (call_names g) -> kf z) by (intros z Hz; right; exists f, g; auto).
        destruct g; try (split; [|exact W2]; intros z Hz; destruct (W1 z Hz) as [[]|K]; exact K).
        split; [exact W1|exact W2].
  Qed.
  Lemma same_main_eval : omap pr_sheet (main_eval ev sched p' ext') = omap pr_sheet (main_eval ev sched p ext).
  Proof.
    unfold main_eval, module_eval_fills. rewrite Hs. destruct (eval_fills (pr_sheet p)) as [s|] eqn:Ef; [|reflexivity]. cbn [bind].
    unfold eval_spreadsheet. cbn [pr_sheet pr_required].
    set (q := {| pr_scope := pr_scope p; pr_sheet := s; pr_required := pr_required p |}).
    set (q' := {| pr_scope := pr_scope p'; pr_sheet := s; pr_required := pr_required p' |}).
    assert (A : forall x, kv x -> assoc x (variables (sheet_scope q' ext')) = assoc x (variables (sheet_scope q ext))).
    { intros x K. rewrite !sheet_scope_assoc by assumption. cbn [pr_scope pr_sheet q q']. destruct (proj1 Ha x K) as [-> ->]. reflexivity. }
    assert (B : forall f, kf f -> assoc f (functions (sheet_scope q' ext')) = assoc f (functions (sheet_scope q ext))).
    { intros f K. apply (proj2 Ha f K). }
    pose proof (rows_agree s (sheet_scope q' ext') Ef A B) as X.
    rewrite (mapi_eq _ _ _ 0 X). destruct (par_collect sched _); reflexivity.
  Qed.
End Same.

Theorem same_programs ev sched p p' ext ext' : (forall a, is_order (ev_order ev a)) ->
  NoDup (map fst (variables (pr_scope p))) -> NoDup (map fst ext) -> NoDup (map fst (variables (pr_scope p'))) -> NoDup (map fst ext') ->
  alike_sheet (pr_sheet p) (pr_sheet p') -> same_where_read p ext p' ext' ->
  same_result pr_sheet (main_eval ev sched p ext) (main_eval ev sched p' ext').
Proof.
  intros Ho H1 H2 H3 H4 Hs Ha. apply same_result_strip. apply strip_sheet_alike in Hs.
  set (p2 := {| pr_scope := pr_scope p'; pr_sheet := pr_sheet p; pr_required := pr_required p' |}).
  pose proof (same_main_eval ev sched p p2 ext ext' Ho H1 H2 H3 H4 eq_refl Ha) as E1.
  assert (E2 : strip_program p' = strip_program p2) by (unfold strip_program; cbn [pr_sheet pr_scope pr_required p2]; rewrite Hs; reflexivity).
  pose proof (strip_main_eval ev sched p' ext') as E3. rewrite E2, strip_main_eval in E3.
  apply (f_equal (omap pr_sheet)) in E3.
  assert (C : forall q : outcome module_error program, omap pr_sheet (omap strip_program q) = omap (fun a => strip_sheet (pr_sheet a)) q) by (intros []; reflexivity).
  rewrite !C in E3. rewrite <- E3. apply (f_equal (omap strip_sheet)) in E1.
  assert (D : forall q : outcome module_error program, omap strip_sheet (omap pr_sheet q) = omap (fun a => strip_sheet (pr_sheet a)) q) by (intros []; reflexivity).
  rewrite !D in E1. symmetry. exact E1.
Qed.
