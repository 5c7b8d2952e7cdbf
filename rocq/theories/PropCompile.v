(** * PropCompile: whole compilations (C45, C46). *)
From Verif Require Import Base BaseProofs Csvp CsvpSpec CsvpLayout PropCsvp SourceCode SourceSpec SourceCodeProofs PropSource Ast AstParser FormulaSpec PropFormula Eval EvalSpec EvalProofs PropEval Options CellParser
  CellSpec CellProofs9 PropCell Sheet SheetSpec SheetProofs SheetProofs2 SheetProofs3 PropSheet PropVariables Loader LoaderSpec LoaderProofs LoaderProofs2 LoaderProofs3 PropLoader PropCache
  Targets PropTarget Files PropFiles CompileSpec.

(** ** Programs without imports *)
Lemma run_no_imports l main sh t : m_requires main = [] -> load_run l main sh t -> loaded sh = [] /\ failed sh = [] /\ t = TDone.
Proof.
  intros R [H Fi]. inversion H as [|? c1 ? H1 R1]; subst; [discriminate Fi|]. inversion H1; subst. unfold new in *. rewrite R in R1. cbn [reserve map app attempted no_modules] in R1.
  inversion R1 as [|? c2 ? H2 R2]; subst; [discriminate Fi|]. inversion H2 as [| | |? ? ? ? a k k' b Hk Ek Ek'|? ? ? ? Fk P|? ? ? ? Fk P]; subst.
  - destruct a; discriminate.
  - inversion R2 as [|? c3 ? H3 R3]; subst; [auto|]. inversion H3.
  - discriminate.
Qed.
Lemma eval_in_order_nothing E uc : forall order scopes F, eval_in_order E uc order [] scopes F = (Ok [], F).
Proof. induction order as [|p order IH]; intros; cbn [eval_in_order passoc]; auto. Qed.
Lemma no_dirty main : any_dirty main [] = false.
Proof. unfold any_dirty. induction (graph_nodes main []); [reflexivity|exact IHl]. Qed.
Lemma compile_no_imports E uc kv main sh t order F : m_requires main = [] -> load_run (load_one E F uc) main sh t ->
  compile_with E uc kv main sh t order F = finish E uc kv (with_flags (with_scope main (m_scope main)) false (m_needs_eval main)) F.
Proof.
  intros R H. destruct (run_no_imports _ _ _ _ R H) as [L [Fa ->]]. unfold compile_with. cbn [panicked]. unfold load_main. rewrite L, no_dirty. unfold eval_dependencies.
  rewrite eval_in_order_nothing. unfold merge_direct_dependencies. rewrite Fa, R. reflexivity.
Qed.
Lemma run_no_imports_exists l main : m_requires main = [] -> exists sh, load_run l main sh TDone.
Proof.
  intro R. eexists. split; [|reflexivity]. eapply st_step; [apply s_reserve|]. rewrite R. cbn [reserve map]. eapply st_step; [apply s_joined; reflexivity|]. apply st_refl.
Qed.
Lemma order_no_imports main : m_requires main = [] -> resolution_order main [] [m_path main].
Proof.
  intro R. split.
  - intro p. unfold graph_nodes. rewrite R. reflexivity.
  - intros _ a p b q c H. exfalso. apply (f_equal (@length _)) in H. cbn in H. rewrite !app_length in H. cbn [length] in H. rewrite app_length in H. cbn [length] in H. lia.
Qed.

(** ** Sheets that evaluation does not change *)
Definition still_cell (ev : eval_env) (sc : scope) (y x : nat) (c : cell) : Prop :=
  match cell_ast c with
  | Some n => ast_eval (ev_fuel ev) (ev_order ev {| addr_x := x; addr_y := y |}) sc (Some {| addr_x := x; addr_y := y |}) n = Ok n
  | None => True
  end.
Lemma eval_cells_still ev sc y : forall cs x, (forall i c, nth_error cs i = Some c -> still_cell ev sc y (x + i) c) -> eval_cells ev sc y x cs = Ok cs.
Proof.
  induction cs as [|c cs IH]; intros x H; cbn [eval_cells]; [reflexivity|].
  pose proof (H 0 c eq_refl) as H0. rewrite Nat.add_0_r in H0. unfold still_cell in H0.
  rewrite IH by (intros i d Hd; rewrite Nat.add_succ_comm; apply H; exact Hd). destruct c as [[n|] f p o v]; cbn [cell_ast] in *.
  - rewrite H0. reflexivity.
  - reflexivity.
Qed.
Lemma collect_all_ok {E A} : forall (l : list A), collect (map (@Ok E A) l) = Ok l.
Proof. induction l as [|x l IH]; cbn [map collect bind]; [reflexivity|]. rewrite IH. reflexivity. Qed.
Lemma mapi_still {A B} (f : nat -> A -> B) (g : A -> B) : forall l i, (forall k a, nth_error l k = Some a -> f (i + k) a = g a) -> mapi f i l = map g l.
Proof.
  induction l as [|a l IH]; intros i H; cbn [mapi map]; [reflexivity|]. rewrite <- (H 0 a eq_refl), Nat.add_0_r. f_equal. apply IH.
  intros k b Hb. rewrite Nat.add_succ_comm. apply H. exact Hb.
Qed.
Lemma eval_sheet_still ev sched p ext :
  (forall y x r c, nth_error (sheet_rows (pr_sheet p)) y = Some r -> nth_error (row_cells r) x = Some c -> still_cell ev (sheet_scope p ext) y x c) ->
  eval_spreadsheet ev sched p ext = Ok {| pr_scope := sheet_scope p ext; pr_sheet := pr_sheet p; pr_required := pr_required p |}.
Proof.
  intro H. unfold eval_spreadsheet. rewrite (mapi_still _ (@Ok module_error row)).
  - rewrite (proj2 (par_collect_ok sched _ _) eq_refl). cbn [bind]. destruct (pr_sheet p). reflexivity.
  - intros y r Hr. cbn [Nat.add]. unfold row_eval. rewrite eval_cells_still by (intros i c Hc; cbn [Nat.add]; eapply H; eauto). destruct r. reflexivity.
Qed.
Definition no_fills (s : spreadsheet) : Prop := forall r, In r (sheet_rows s) -> row_fill r = None.
Lemma expand_no_fills s : no_fills s -> fills_expanded s = false -> eval_fills s = Some {| sheet_rows := sheet_rows s; fills_expanded := true |}.
Proof.
  intros H Fe. unfold eval_fills. rewrite Fe. unfold has_multiple_infinite_expands.
  assert (M : forall rs b, (forall r, In r rs -> row_fill r = None) -> multiple_infinite b rs = false).
  { induction rs as [|r rs IH]; intros b Hr; cbn [multiple_infinite]; [reflexivity|]. unfold is_infinite. rewrite (Hr r (or_introl eq_refl)). apply IH. intros; apply Hr; right; assumption. }
  rewrite M by exact H. f_equal. f_equal.
  assert (X : forall left rs acc n, (forall r, In r rs -> row_fill r = None) -> fst (fold_left (expand_step left) rs (acc, n)) = acc ++ rs).
  { intro left. induction rs as [|r rs IH]; intros acc n Hr; cbn [fold_left]; [symmetry; apply app_nil_r|]. unfold expand_step at 2. rewrite (Hr r (or_introl eq_refl)).
    rewrite IH by (intros; apply Hr; right; assumption). rewrite <- app_assoc. reflexivity. }
  rewrite X by exact H. reflexivity.
Qed.
Definition no_vars (s : spreadsheet) : Prop := forall r, In r (sheet_rows s) -> row_var r = None /\ forall c, In c (row_cells r) -> cell_var c = None.
Lemma no_vars_none s : no_vars s -> sheet_variables s = [].
Proof.
  intro H. unfold sheet_variables. unfold no_vars in H. generalize 0. induction (sheet_rows s) as [|r rs IH]; intro y; cbn [row_variables]; [reflexivity|].
  destruct (H r (or_introl eq_refl)) as [-> Hc]. assert (C : forall i, cell_variables y r i (row_cells r) [] = []).
  { clear -Hc. induction (row_cells r) as [|c cs IHc]; intro i; cbn [cell_variables]; [reflexivity|]. rewrite (Hc c (or_introl eq_refl)). apply IHc. intros; apply Hc; right; assumption. }
  rewrite C. apply IH. intros r' Hr'. apply H. right. exact Hr'.
Qed.

(** ** Reading a sheet without option lists *)
Definition plain_cell (co : cell_oracle) (f : field) (c : cell) : Prop :=
  parsed_value c = f_value f /\ cell_var c = None /\ formula_of co (f_value f) (cell_ast c).
Definition readable (co : cell_oracle) (v : str) : Prop := no_list v /\ (is_formula v -> exists n, ast_parse (co_oracle co) false v = Ok n).
Lemma cell_parse_readable co cfg inp rs y fs f r : csvp_parse cfg inp = Ok rs -> nth_error rs y = Some fs -> In f fs -> readable co (f_value f) ->
  exists c, cell_parse co f r = Ok (c, r) /\ plain_cell co f c.
Proof.
  intros HP Hy Hf [N P]. pose proof (C38_verbatim co cfg inp rs y fs f r HP Hy Hf N) as V.
  assert (Fo : exists a, formula_of co (f_value f) a).
  { destruct (is_formula_dec (f_value f)) as [I|I]; [destruct (P I) as [n Pn]; exists (Some n); left; eauto|exists None; right; auto]. }
  destruct Fo as [a Fo]. unfold cell_parse in V |- *. rewrite (parse_cell_plain co f r N) in V |- *. cbn [at_address bind] in V |- *.
  change (parsed_value (cell_after f [] (f_value f) r)) with (trim (f_value f)) in V |- *.
  destruct (csvp_trimmed _ _ _ _ _ _ HP Hy Hf) as [raw Ev].
  assert (ET : trim (f_value f) = f_value f) by (rewrite Ev; apply trim_idem). rewrite ET in V |- *.
  rewrite (parse_formula_ok _ _ _ _ Fo) in V |- *. cbn [bind] in V |- *. eexists. split; [reflexivity|]. unfold plain_cell. tauto.
Qed.
Lemma row_parse_readable co cfg inp rs y fs : csvp_parse cfg inp = Ok rs -> nth_error rs y = Some fs -> (forall f, In f fs -> readable co (f_value f)) ->
  exists r, row_parse co fs = Ok r /\ row_fill r = None /\ row_var r = None /\ Forall2 (plain_cell co) fs (row_cells r).
Proof.
  intros HP Hy H. assert (X : forall l r, incl l fs -> exists cs, row_parse_cells co l r = Ok (cs, r) /\ Forall2 (plain_cell co) l cs).
  { induction l as [|f l IH]; intros r I; cbn [row_parse_cells]; [exists []; auto|].
    destruct (cell_parse_readable co cfg inp rs y fs f r HP Hy (I f (or_introl eq_refl)) (H f (I f (or_introl eq_refl)))) as [c [-> Pc]]. cbn [bind].
    destruct (IH r) as [cs [-> Pcs]]; [intros g Hg; apply I; right; exact Hg|]. cbn [bind]. eauto. }
  destruct (X fs default_row (incl_refl _)) as [cs [Ec Pc]]. unfold row_parse. rewrite Ec. cbn [bind]. eexists. split; [reflexivity|]. auto.
Qed.
Lemma rows_parse_readable co cfg inp rs : csvp_parse cfg inp = Ok rs -> (forall fs f, In fs rs -> In f fs -> readable co (f_value f)) ->
  exists rows, parse_rows co rs = Ok rows /\ Forall2 (fun fs r => row_fill r = None /\ row_var r = None /\ Forall2 (plain_cell co) fs (row_cells r)) rs rows.
Proof.
  intros HP H. assert (X : forall l, incl l rs -> exists rows, parse_rows co l = Ok rows /\ Forall2 (fun fs r => row_fill r = None /\ row_var r = None /\ Forall2 (plain_cell co) fs (row_cells r)) l rows).
  { induction l as [|fs l IH]; intro I; cbn [parse_rows]; [exists []; auto|]. destruct (In_nth_error _ _ (I fs (or_introl eq_refl))) as [y Hy].
    destruct (row_parse_readable co cfg inp rs y fs HP Hy) as [r [-> Pr]]; [intros f Hf; eapply H; [apply I; left; reflexivity|exact Hf]|]. cbn [bind].
    destruct IH as [rows [-> Pr2]]; [intros g Hg; apply I; right; exact Hg|]. cbn [bind]. eauto. }
  apply X, incl_refl.
Qed.
Lemma no_separator_code text : no_separator_line text -> code_section (source_code_new text) = None /\ csv_section (source_code_new text) = text /\ length_of_code_section (source_code_new text) = 0.
Proof.
  intro H. pose proof (C08_split text) as S1. cbv zeta in S1. destruct (code_section (source_code_new text)) as [code|]; [exfalso|tauto].
  destruct S1 as [cl [sep [csv [L [_ [Sp _]]]]]]. apply C08_separator_line in Sp as [a [b [-> [A B]]]]. eapply H; [|exact A|exact B|reflexivity]. rewrite L. apply in_elt.
Qed.
Lemma load_readable co text rs : no_separator_line text -> csvp_parse default_config text = Ok rs -> (forall fs f, In fs rs -> In f fs -> readable co (f_value f)) ->
  exists rows, load_source co text = Ok {| pr_scope := empty_scope; pr_sheet := {| sheet_rows := rows; fills_expanded := false |}; pr_required := [] |}
    /\ Forall2 (fun fs r => row_fill r = None /\ row_var r = None /\ Forall2 (plain_cell co) fs (row_cells r)) rs rows.
Proof.
  intros N P H. destruct (no_separator_code text N) as [C1 [C2 C3]]. destruct (rows_parse_readable co _ _ _ P H) as [rows [Pr F]]. exists rows. split; [|exact F].
  unfold load_source. cbv zeta. rewrite C1. cbn [bind]. unfold sheet_parse. rewrite C2, C3. change {| separator := c_comma; lines_above := 0 |} with default_config. rewrite P. cbn [bind]. rewrite Pr. reflexivity.
Qed.

(** ** C46 *)
(** In any program: a cell whose formula mentions nothing that is in scope when the sheet is evaluated (definitions of the file, of the
    imported files, variables of the sheet, command line) is written, at each of the rows its row stands for, as the equals sign and the
    canonical text of the formula. *)
Theorem C46_any_program : forall E use_cache kv name F m F' text time prog,
  compiles E use_cache kv name F (Ok m, F') -> no_object F [name] \/ older_object F [name] ->
  sources F [name] = Some (text, time) -> load_source (e_co E) text = Ok prog ->
  let rows := sheet_rows (pr_sheet prog) in
  forall i r x c n k, nth_error rows i = Some r -> nth_error (row_cells r) x = Some c -> cell_ast c = Some n ->
    nothing_known (m_scope m) n -> k < copies (room rows) r ->
    exists c', cell_at (pr_sheet (m_program m)) (offset (room rows) rows i + k) x = Some c' /\ show_cell c' = c_eq :: show n.
Proof.
  intros E uc kv name F m F' text time prog C No So Ld rows i r x c n k Hr Hc Ha Hk Hn.
  inversion C as [main sh t order Lm R O Eq| |]; clear C. rewrite main_not_clean in Lm by exact No. unfold load_from_source in Lm. rewrite So, Ld in Lm. injection Lm as <-.
  unfold compile_with in Eq. destruct (panicked t); [discriminate|]. unfold load_main in Eq.
  destruct (any_dirty _ _); [discriminate|]. destruct (eval_dependencies _ _ _ _ _) as [[ld|e| |] F1]; try discriminate.
  unfold merge_direct_dependencies in Eq. destruct (failed sh); [|discriminate]. destruct (merge_required _ _ _) as [sc|]; [|discriminate].
  unfold finish in Eq. cbn [m_needs_eval with_flags with_scope] in Eq. cbn [m_program with_flags with_scope pr_sheet pr_required] in Eq.
  set (p0 := {| pr_scope := sc; pr_sheet := pr_sheet prog; pr_required := pr_required prog |}) in *.
  destruct (main_eval _ _ p0 kv) as [p'|e| |] eqn:Me; try discriminate.
  assert (Mp : m_program m = p').
  { destruct uc; [destruct (write_object _ _ _); [|discriminate]|]; injection Eq as <- _; reflexivity. }
  assert (Fe : fills_expanded (pr_sheet prog) = false).
  { clear -Ld. unfold load_source in Ld. cbv zeta in Ld. destruct (match code_section _ with Some _ => _ | None => _ end) as [[? ?]| | |]; cbn [bind] in Ld; try discriminate.
    unfold sheet_parse in Ld. destruct (csvp_parse _ _); cbn [bind] in Ld; try discriminate. destruct (parse_rows _ _); cbn [bind] in Ld; try discriminate. injection Ld as <-. reflexivity. }
  destruct (C52_in_place _ _ _ _ _ Me) as [p1 [Mf [L N]]]. unfold module_eval_fills in Mf. cbn [p0 pr_sheet] in Mf. destruct (eval_fills (pr_sheet prog)) as [s1|] eqn:Ef; [|discriminate]. injection Mf as <-.
  destruct (C23_expansion _ _ Fe Ef) as [_ [_ [X _]]]. destruct (X i r k Hr Hn) as [r1 [Hr1 [Cells _]]]. cbn [pr_sheet] in N.
  destruct (N _ _ Hr1) as [r2 [Hr2 [_ [_ [_ [_ Cs]]]]]]. rewrite <- Cells in Hc. destruct (Cs x c Hc) as [c2 [Hc2 [_ [_ [_ [_ Ev]]]]]]. rewrite Ha in Ev. destruct Ev as [n2 [Ev An]].
  exists c2. subst rows. unfold cell_at. rewrite Mp, Hr2, Hc2. split; [reflexivity|]. unfold show_cell. rewrite An. f_equal. f_equal.
  assert (Sc : m_scope m = sheet_scope {| pr_scope := sc; pr_sheet := s1; pr_required := pr_required prog |} kv).
  { unfold m_scope. rewrite Mp. unfold main_eval in Me. unfold module_eval_fills in Me. cbn [p0 pr_sheet] in Me. rewrite Ef in Me. cbn [bind] in Me. unfold eval_spreadsheet in Me.
    destruct (par_collect _ _); cbn [bind] in Me; try discriminate. injection Me as <-. reflexivity. }
  rewrite Sc in Hk. destruct (ev_fuel (e_sheet E)) as [|fuel] eqn:Fu; [discriminate Ev|].
  rewrite C16_untouched in Ev by (try lia; exact Hk). congruence.
Qed.
Print Assumptions C46_any_program.

Lemma Forall2_In_r {A B} (R : A -> B -> Prop) l l' b : Forall2 R l l' -> In b l' -> exists a, In a l /\ R a b.
Proof. induction 1 as [|a b0 l l' H _ IH]; intros []; [subst; exists a; split; [left; reflexivity|exact H]|]. destruct (IH H0) as [a2 [? ?]]. exists a2. split; [right; assumption|assumption]. Qed.
Lemma assoc_none {A} (x : str) : forall (l : list (str * A)), ~ In x (map fst l) -> assoc x l = None.
Proof. induction l as [|[k v] l IH]; cbn [map fst assoc In]; intro H; [reflexivity|]. destruct (str_eqb_spec x k) as [->|]; [tauto|]. apply IH. tauto. Qed.
Lemma insert_all_none (x : str) : forall (vars m : list (str * node)), ~ In x (map fst vars) -> assoc x (fold_left (fun m kv => assoc_insert (fst kv) (snd kv) m) vars m) = assoc x m.
Proof.
  induction vars as [|[k v] vars IH]; intros m H; cbn [fold_left map fst snd In] in *; [reflexivity|]. rewrite IH by tauto. apply assoc_insert_other. intro Q. apply H. left. auto.
Qed.
(** A file without code section and option lists: it compiles, and each cell is written as it is ([untouched]). *)
Theorem C46_plain_file : forall E use_cache kv name F text time rs,
  sources F [name] = Some (text, time) -> no_object F [name] \/ older_object F [name] ->
  (use_cache = true -> e_writable E [name] = true) -> 0 < ev_fuel (e_sheet E) ->
  no_separator_line text -> csvp_parse default_config text = Ok rs ->
  (forall r v, In r (values rs) -> In v r -> independent_text (e_co E) (map fst kv) v) ->
  (exists r, compiles E use_cache kv name F r)
  /\ forall r, compiles E use_cache kv name F r ->
     exists m, fst r = Ok m /\ Forall2 (Forall2 (untouched (e_co E))) (values rs) (sheet_texts (pr_sheet (m_program m))).
Proof.
  intros E uc kv name F text time rs So No Wr Fu Ns P H.
  assert (H' : forall fs f, In fs rs -> In f fs -> independent_text (e_co E) (map fst kv) (f_value f)) by (intros fs f H1 H2; eapply H; [apply in_map, H1|apply in_map, H2]).
  destruct (load_readable (e_co E) text rs Ns P) as [rows [Ld Fr]].
  { intros fs f H1 H2. destruct (H' fs f H1 H2) as [A B]. split; [exact A|]. intro I. destruct (B I) as [n [Pn _]]. eauto. }
  set (s := {| sheet_rows := rows; fills_expanded := false |}) in *.
  set (main := {| m_version := e_version E; m_path := [name]; m_program := {| pr_scope := empty_scope; pr_sheet := s; pr_required := [] |}; m_file := [name]; m_dirty := false; m_needs_eval := true |}).
  assert (Lm : load_from_cache_from_filename E F [name] [name] = Ok main).
  { rewrite main_not_clean by exact No. unfold load_from_source. rewrite So, Ld. reflexivity. }
  assert (Nf : no_fills s) by (intros r Hr; cbn [s sheet_rows] in Hr; destruct (Forall2_In_r _ _ _ _ Fr Hr) as [? [_ [Q _]]]; exact Q).
  assert (Nv : no_vars {| sheet_rows := rows; fills_expanded := true |}).
  { intros r Hr. cbn [sheet_rows] in Hr. destruct (Forall2_In_r _ _ _ _ Fr Hr) as [fs [_ [_ [Q Fc]]]]. split; [exact Q|]. intros c Hc. destruct (Forall2_In_r _ _ _ _ Fc Hc) as [? [_ [_ [Q2 _]]]]. exact Q2. }
  assert (Me : forall sched, exists sc, main_eval (e_sheet E) sched (m_program main) kv = Ok {| pr_scope := sc; pr_sheet := {| sheet_rows := rows; fills_expanded := true |}; pr_required := [] |}).
  { intro sched. eexists. unfold main_eval, module_eval_fills. cbn [main m_program pr_sheet]. rewrite expand_no_fills by (try exact Nf; reflexivity). cbn [bind pr_scope pr_required].
    rewrite eval_sheet_still; [reflexivity|]. cbn [pr_sheet]. intros y x r c Hy Hx. unfold still_cell. destruct (cell_ast c) as [n|] eqn:An; [|exact I].
    cbn [s sheet_rows] in Hy. apply nth_error_In in Hy. destruct (Forall2_In_r _ _ _ _ Fr Hy) as [fs [Hfs [_ [_ Fc]]]]. apply nth_error_In in Hx. destruct (Forall2_In_r _ _ _ _ Fc Hx) as [f [Hf [_ [_ Fo]]]].
    rewrite An in Fo. destruct Fo as [[I [n' [Pn Q]]]|[_ Q]]; [|discriminate]. injection Q as <-. destruct (H' fs f Hfs Hf) as [_ Ind]. destruct (Ind I) as [n' [Pn' Nm]]. rewrite Pn in Pn'. injection Pn' as <-.
    apply C16_untouched; [exact Fu|]. unfold sheet_scope. cbn [pr_scope pr_sheet]. rewrite no_vars_none by exact Nv. split; [|intros; reflexivity].
    intros z Hz. unfold merge_variables. cbn [variables functions empty_scope fold_left]. rewrite insert_all_none by (intro Q; exact (Nm z Hz Q)). reflexivity. }
  split.
  - destruct (run_no_imports_exists (load_one E F uc) main eq_refl) as [sh R]. eexists. eapply c_run; [exact Lm|exact R|]. destruct (run_no_imports _ main sh TDone eq_refl R) as [-> _]. apply order_no_imports. reflexivity.
  - intros r C. destruct C as [main' sh t order Lm' R O|e Lm'|Lm']; rewrite Lm in Lm'; try discriminate. injection Lm' as <-.
    rewrite compile_no_imports by (try reflexivity; exact R). unfold finish. cbn [m_needs_eval with_flags main]. cbn [m_program with_flags with_scope m_scope pr_sheet pr_required main pr_scope].
    destruct (Me (e_sched E)) as [sc Q]. cbn [main m_program] in Q. rewrite Q.
    assert (T : Forall2 (Forall2 (untouched (e_co E))) (values rs) (sheet_texts {| sheet_rows := rows; fills_expanded := true |})).
    { unfold values, sheet_texts. cbn [sheet_rows]. clear -Fr. induction Fr as [|fs r rs rows [_ [_ Fc]] _ IH]; cbn [map]; constructor; [|exact IH].
      induction Fc as [|f c fs cs [Pv [_ Fo]] _ IHc]; cbn [map]; constructor; [|exact IHc]. unfold untouched, show_cell.
      destruct Fo as [[I [n [Pn An]]]|[I An]]; rewrite An; [left|right]; eauto. }
    destruct uc.
    + unfold write_object. cbn [m_file with_flags with_program with_scope main]. rewrite (Wr eq_refl). cbn [fst]. eexists. split; [reflexivity|]. exact T.
    + cbn [fst]. eexists. split; [reflexivity|]. exact T.
Qed.
Print Assumptions C46_plain_file.
(** the formulas of C46, written out: whatever canonical text a cell holds after its equals sign, it is written back unchanged *)
Theorem C46_canonical_formula : forall E (kv : list (str * node)) n out, printable (co_oracle (e_co E)) n -> (forall x, In x (ref_names (canonical n)) -> ~ In x (map fst kv)) ->
  independent_text (e_co E) (map fst kv) (c_eq :: show n) /\ (untouched (e_co E) (c_eq :: show n) out -> out = c_eq :: show n).
Proof.
  intros E kv n out Pn Hn. assert (Q : ast_parse (co_oracle (e_co E)) false (c_eq :: show n) = Ok (canonical n)) by apply (FormulaText.parse_show _ false n Pn).
  split.
  - split; [split; intros [r Hr]; discriminate|]. intros _. eauto.
  - intros [[_ [n' [P' ->]]]|[N _]]; [|exfalso; apply N; eexists; reflexivity]. rewrite Q in P'. injection P' as <-. f_equal. eapply FormulaText.show_canonical; eauto.
Qed.
Print Assumptions C46_canonical_formula.

(** ** C45 *)
Lemma trim_self_mid f a b : trim f = f -> f = a ++ lit "---" ++ b -> forallb is_ws a = true -> forallb is_ws b = true -> f = lit "---".
Proof.
  intros T E A B. rewrite <- T, E. unfold trim. rewrite trim_start_app_ws by exact A. change (trim_start (lit "---" ++ b)) with (lit "---" ++ b).
  unfold trim_end. rewrite rev_app_distr, trim_start_app_ws; [reflexivity|]. rewrite forallb_forall in *. intros x Hx. apply B, in_rev, Hx.
Qed.
Lemma lines_aux_shape : forall s cur l, In l (lines_aux s cur) -> exists a m b, cur ++ s = a ++ m ++ b /\ (l = m \/ l = strip_cr m) /\ (a = [] \/ exists a', a = a' ++ [c_nl]) /\ (b = [] \/ exists b', b = c_nl :: b').
Proof.
  induction s as [|c s IH]; intros cur l H; cbn [lines_aux] in H.
  - destruct cur as [|x cur]; [destruct H|]. destruct H as [<-|[]]. exists [], (x :: cur), []. rewrite !app_nil_r. auto 8.
  - destruct (N.eqb_spec c c_nl) as [->|N].
    + destruct H as [<-|H]; [exists [], cur, (c_nl :: s); split; [reflexivity|]; eauto 8|].
      destruct (IH [] l H) as (a & m & b & Q & L & A & B). cbn [app] in Q. exists (cur ++ [c_nl] ++ a), m, b. rewrite Q. split; [rewrite <- !app_assoc; reflexivity|]. split; [exact L|]. split; [|exact B].
      right. destruct A as [->|[a' ->]]; [exists cur; rewrite app_nil_r; reflexivity|exists (cur ++ [c_nl] ++ a'); rewrite <- !app_assoc; reflexivity].
    + destruct (IH _ l H) as (a & m & b & Q & L & A & B). exists a, m, b. rewrite <- Q. rewrite <- app_assoc. auto.
Qed.
Lemma strip_cr_shape l : exists b, l = strip_cr l ++ b /\ forallb is_ws b = true.
Proof.
  unfold strip_cr. destruct (rev l) as [|c r] eqn:Q; [exists []; rewrite app_nil_r; auto|]. destruct (N.eqb_spec c c_cr) as [->|]; [|exists []; rewrite app_nil_r; auto].
  exists [c_cr]. split; [|reflexivity]. rewrite <- (rev_involutive l), Q. reflexivity.
Qed.
Lemma join_comma_in (r : list str) : 2 <= length r -> In c_comma (join [c_comma] r).
Proof. destruct r as [|a [|b r]]; cbn [length]; try lia. intros _. cbn [join]. apply in_or_app. right. left. reflexivity. Qed.
Lemma join_comma_chars (r : list str) c : In c (join [c_comma] r) -> c = c_comma \/ exists f, In f r /\ In c f.
Proof.
  induction r as [|a r IH]; [intros []|]. destruct r as [|b r]; [intro H; right; exists a; cbn [join] in H; split; [left; reflexivity|exact H]|].
  cbn [join]. intro H. apply in_app_or in H as [H|[<-|H]]; [right; exists a; split; [left; reflexivity|exact H]|auto|].
  destruct (IH H) as [|[f [F1 F2]]]; [auto|right; exists f; split; [right; exact F1|exact F2]].
Qed.
Lemma plain_row_one_line r : plain_row c_comma r = true -> one_line (join [c_comma] r) = true.
Proof.
  intro H. unfold one_line. apply forallb_forall. intros c Hc. destruct (join_comma_chars r c Hc) as [->|[f [F1 F2]]]; [reflexivity|].
  unfold plain_row in H. destruct r; [destruct F1|]. rewrite forallb_forall in H. specialize (H f F1). unfold plain_field in H. apply andb_true_iff in H as [H _].
  rewrite forallb_forall in H. specialize (H c F2). repeat (apply andb_true_iff in H as [H ?]). assumption.
Qed.
Lemma render_lines : forall t, forallb (plain_row c_comma) t = true -> lines_of (render_table c_comma t) = map (fun r => strip_cr (join [c_comma] r)) t.
Proof.
  unfold lines_of. induction t as [|r t IH]; intro H; [reflexivity|]. cbn [forallb] in H. apply andb_true_iff in H as [Hr Ht]. unfold render_table in *. cbn [map concat].
  rewrite <- app_assoc. cbn [app]. rewrite lines_aux_line by (apply plain_row_one_line; exact Hr). rewrite IH by exact Ht. reflexivity.
Qed.
Lemma render_no_separator t : forallb (plain_row c_comma) t = true -> ~ In [lit "---"] t -> no_separator_line (render_table c_comma t).
Proof.
  intros P N l a b Hl A B Q. rewrite render_lines in Hl by exact P. apply in_map_iff in Hl as [r [El Hr]]. rewrite Q in El. destruct (strip_cr_shape (join [c_comma] r)) as [b' [J B']]. rewrite El in J.
  rewrite <- !app_assoc in J. rewrite forallb_forall in P. specialize (P r Hr).
  destruct r as [|f [|g r]]; [discriminate| |].
  - apply N. replace (lit "---") with f; [exact Hr|]. cbn [join] in J. unfold plain_row in P. cbn [forallb] in P. rewrite andb_true_r in P. unfold plain_field in P. apply andb_true_iff in P as [_ T].
    destruct (str_eqb_spec (trim f) f) as [T'|]; [|discriminate]. eapply trim_self_mid; [exact T'|exact J|exact A|]. rewrite forallb_app, B, B'. reflexivity.
  - assert (I : In c_comma (a ++ lit "---" ++ b ++ b')) by (rewrite <- J; apply join_comma_in; cbn [length]; lia). rewrite forallb_forall in *.
    apply in_app_or in I as [I|I]; [discriminate (A _ I)|]. apply in_app_or in I as [I|I]; [cbn in I; intuition discriminate|]. apply in_app_or in I as [I|I]; [discriminate (B _ I)|discriminate (B' _ I)].
Qed.
(** Any file without separator line, however it is laid out (comments, quotes, continued lines): if its cells are neither formulas nor have
    option lists, it compiles to exactly the table that the CSV reader finds (which table that is: C01-C05). *)
Theorem C45_any_layout : forall E use_cache kv name F text time rs,
  sources F [name] = Some (text, time) -> no_object F [name] \/ older_object F [name] ->
  (use_cache = true -> e_writable E [name] = true) -> 0 < ev_fuel (e_sheet E) ->
  no_separator_line text -> csvp_parse default_config text = Ok rs -> (forall r v, In r (values rs) -> In v r -> no_list v /\ ~ is_formula v) ->
  (exists r, compiles E use_cache kv name F r)
  /\ forall r, compiles E use_cache kv name F r -> exists m, fst r = Ok m /\ sheet_texts (pr_sheet (m_program m)) = values rs.
Proof.
  intros E uc kv name F text time rs So No Wr Fu Ns Pr H. destruct (C46_plain_file E uc kv name F text time rs So No Wr Fu Ns Pr) as [Ex All].
  { intros r v Hr Hv. destruct (H r v Hr Hv) as [A B]. split; [exact A|]. intro. contradiction. }
  split; [exact Ex|]. intros r C. destruct (All r C) as [m [Q T]]. exists m. split; [exact Q|].
  assert (Hr : forall r, In r (values rs) -> forall v, In v r -> ~ is_formula v) by (intros; eapply H; eauto). clear -T Hr. induction T as [|x y xs ys R _ IH]; [reflexivity|]. f_equal; [|apply IH; intros; eapply Hr; [right|]; eassumption].
  assert (Hx : forall v, In v x -> ~ is_formula v) by (apply Hr; left; reflexivity). clear -R Hx. induction R as [|v o vs os Rv _ IH]; [reflexivity|].
  destruct Rv as [[I _]|[_ ->]]; [destruct (Hx v (or_introl eq_refl) I)|]. f_equal. apply IH. intros; apply Hx; right; assumption.
Qed.
Print Assumptions C45_any_layout.
(** Every plain table: the file that holds it compiles, however the run goes, to a sheet with exactly these texts. *)
Theorem C45_plain_table : forall E use_cache kv name F t time,
  plain_table c_comma t = true -> ~ In [lit "---"] t -> (forall r v, In r t -> In v r -> no_list v /\ ~ is_formula v) ->
  sources F [name] = Some (render_table c_comma t, time) -> no_object F [name] \/ older_object F [name] ->
  (use_cache = true -> e_writable E [name] = true) -> 0 < ev_fuel (e_sheet E) ->
  (exists r, compiles E use_cache kv name F r)
  /\ forall r, compiles E use_cache kv name F r -> exists m, fst r = Ok m /\ sheet_texts (pr_sheet (m_program m)) = t.
Proof.
  intros E uc kv name F t time P N H So No Wr Fu. destruct (C01_plain_table_round_trip default_config t eq_refl P) as [rs [Pr Vs]]. cbn [separator default_config] in Pr.
  unfold plain_table in P. apply andb_true_iff in P as [P _].
  rewrite <- Vs. apply (C45_any_layout E uc kv name F (render_table c_comma t) time rs So No Wr Fu (render_no_separator t P N) Pr). rewrite Vs. exact H.
Qed.
Print Assumptions C45_plain_table.

Lemma nth_error_ext {A} : forall l l' : list A, (forall i, nth_error l i = nth_error l' i) -> l = l'.
Proof.
  induction l as [|x l IH]; intros [|y l'] H; [reflexivity|discriminate (H 0)|discriminate (H 0)|]. injection (H 0) as ->. f_equal. apply IH. intro i. exact (H (S i)).
Qed.
Lemma merge_nothing ow (new : list cell) : merge_rows ow ([] : list (existing str)) new = map MNew new.
Proof.
  destruct (C34_merge str ow [] new) as [L N]. apply nth_error_ext. intro i. rewrite nth_error_map. destruct (Nat.ltb_spec i (length new)) as [Hi|Hi].
  - rewrite N by (cbn [length Nat.max]; exact Hi). destruct (nth_error new i) as [c|] eqn:Q; [destruct i; reflexivity|apply nth_error_None in Q; lia].
  - rewrite (proj2 (nth_error_None _ _)) by (rewrite L; cbn [length Nat.max]; exact Hi). rewrite (proj2 (nth_error_None new i)) by exact Hi. reflexivity.
Qed.
Lemma width_le t r : In r t -> length r <= width t.
Proof.
  intro H. unfold width. induction t as [|x t IH]; [destruct H|]. cbn [map list_max fold_right]. fold (list_max (map (@length str) t)). destruct H as [->|H]; [lia|]. specialize (IH H). lia.
Qed.
Lemma widest_width s : widest_row s = width (sheet_texts s).
Proof.
  unfold widest_row, width, sheet_texts. assert (X : forall rows m, fold_left (fun m r => Nat.max m (length (row_cells r))) rows m = Nat.max m (list_max (map (@length str) (map (fun r => map show_cell (row_cells r)) rows)))).
  { induction rows as [|r rows IH]; intro m; cbn [fold_left map list_max fold_right]; [lia|]. fold (list_max (map (@length str) (map (fun r => map show_cell (row_cells r)) rows))). rewrite IH, map_length. lia. }
  rewrite X. reflexivity.
Qed.
Lemma csv_write_fresh ow s : csv_write ow [] s = padded (sheet_texts s).
Proof.
  unfold csv_write, padded. rewrite <- widest_width. assert (W : forall r, In r (sheet_rows s) -> length (row_cells r) <= widest_row s) by (intros r Hr; apply In_nth_error in Hr as [i Hi]; eapply widest_ge; eauto).
  unfold sheet_texts, csv_existing. cbn [map]. induction (sheet_rows s) as [|r rows IH]; [reflexivity|]. cbn [csv_rows hd tl map]. f_equal; [|apply IH; intros; apply W; right; assumption].
  rewrite merge_nothing, map_map. cbn [csv_field]. unfold resize. rewrite firstn_all2 by (rewrite map_length; apply W; left; reflexivity). reflexivity.
Qed.
(** Written to a new file, that is the table as a rectangle, and it reads back as that. *)
Theorem C45_output_file : forall E use_cache kv name F t time r read creatable now overwrite p files,
  plain_table c_comma t = true -> ~ In [lit "---"] t -> (forall r v, In r t -> In v r -> no_list v /\ ~ is_formula v) ->
  sources F [name] = Some (render_table c_comma t, time) -> no_object F [name] \/ older_object F [name] ->
  (use_cache = true -> e_writable E [name] = true) -> 0 < ev_fuel (e_sheet E) ->
  compiles E use_cache kv name F r -> files p = None ->
  exists files', main_program read creatable true now false overwrite p (fst r) files = (Done, files')
    /\ files' p = Some (csv_text (padded t)) /\ csv_read (csv_text (padded t)) = padded t /\ forall q, q <> p -> files' q = files q.
Proof.
  intros E uc kv name F t time r read cr now ow p fs P N H So No Wr Fu C Fp. destruct (proj2 (C45_plain_table E uc kv name F t time P N H So No Wr Fu) r C) as [m [-> T]].
  unfold main_program, write_csv. rewrite Fp, csv_write_fresh, T. eexists. split; [reflexivity|]. split; [unfold write_file; destruct (file_eqb_spec p p); [reflexivity|congruence]|]. split.
  - apply C65_read_back. intros x Hx. unfold padded in Hx. apply in_map_iff in Hx as [y [<- Hy]]. unfold plain_table in P. apply andb_true_iff in P as [P _]. rewrite forallb_forall in P. specialize (P y Hy). destruct y; [discriminate|]. discriminate.
  - intros q Nq. unfold write_file. destruct (file_eqb_spec q p); congruence.
Qed.
Print Assumptions C45_output_file.
(** A rectangular table without carriage returns and empty lines comes out byte for byte as it went in. *)
Theorem C45_same_bytes : forall t w, plain_table c_comma t = true -> (forall r, In r t -> length r = w) -> (forall r v, In r t -> In v r -> ~ In c_cr v) -> ~ In [[]] t ->
  csv_text (padded t) = render_table c_comma t.
Proof.
  intros t w P L Cr Ne. assert (Pd : padded t = t).
  { unfold padded. rewrite <- (map_id t) at 2. apply map_ext_in. intros r Hr. rewrite (L r Hr). assert (W : width t = w).
    { unfold width. destruct t as [|x t]; [destruct Hr|]. clear -L. assert (X : forall l, (forall r : list str, In r l -> length r = w) -> list_max (map (@length str) l) <= w).
      { induction l as [|a l IH]; intro Hl; cbn [map list_max fold_right]; [lia|]. fold (list_max (map (@length str) l)). specialize (IH ltac:(intros; apply Hl; right; assumption)). pose proof (Hl a (or_introl eq_refl)). lia. }
      specialize (X _ L). pose proof (width_le (x :: t) x (or_introl eq_refl)) as Y. unfold width in Y. rewrite (L x (or_introl eq_refl)) in Y. lia. }
    rewrite W, Nat.sub_diag. apply app_nil_r. }
  rewrite Pd. unfold plain_table in P. apply andb_true_iff in P as [P _]. clear L Pd. unfold csv_text, render_table. induction t as [|r t IH]; [reflexivity|].
  cbn [flat_map map concat]. cbn [forallb] in P. apply andb_true_iff in P as [Pr Pt]. rewrite IH; [|exact Pt|intros; eapply Cr; [right|]; eassumption|intro; apply Ne; right; assumption]. f_equal.
  assert (Id : map csv_field_text r = r).
  { rewrite <- (map_id r) at 2. apply map_ext_in. intros v Hv. unfold csv_field_text. replace (needs_quotes v) with false; [reflexivity|]. symmetry. unfold needs_quotes. apply not_true_is_false. intro Q. apply existsb_exists in Q as [c [Hc Q]].
    assert (Hp : plain_field c_comma v = true) by (unfold plain_row in Pr; destruct r; [destruct Hv|]; rewrite forallb_forall in Pr; apply Pr, Hv). unfold plain_field in Hp. apply andb_true_iff in Hp as [Hp _]. rewrite forallb_forall in Hp. specialize (Hp c Hc).
    assert (Nc : (c =? c_cr)%N = false) by (apply N.eqb_neq; intros ->; exact (Cr r v (or_introl eq_refl) Hv Hc)). rewrite Nc in Q. destruct (c =? c_comma)%N, (c =? c_nl)%N, (c =? c_dquote)%N; cbn in *; try discriminate; rewrite ?andb_false_r in Hp; discriminate. }
  unfold csv_record_text. rewrite Id. destruct (join [c_comma] r) as [|x l] eqn:J; [|reflexivity]. exfalso. apply Ne. left. destruct r as [|a [|b r]]; [discriminate Pr|cbn in J; subst; reflexivity|].
  pose proof (join_comma_in (a :: b :: r)) as I. rewrite J in I. destruct (I ltac:(cbn [length]; lia)).
Qed.
Print Assumptions C45_same_bytes.
Definition ex_table : list (list str) := [[lit "name"; lit "qty"]; [lit "pear"; lit "12"; lit "x y"]; [[]; lit "-"]].
Definition ex_table_files : fs := {| sources := fun f => if path_eqb f [lit "main"] then Some (render_table c_comma ex_table, 1) else None; objects := fun _ => None |}.
Example C45_nonvacuous : plain_table c_comma ex_table = true /\ ~ In [lit "---"] ex_table
  /\ (forall r v, In r ex_table -> In v r -> no_list v /\ ~ is_formula v)
  /\ sources ex_table_files [lit "main"] = Some (render_table c_comma ex_table, 1) /\ no_object ex_table_files [lit "main"]
  /\ csv_text (padded ex_table) = lit ("name,qty," ++ nl ++ "pear,12,x y" ++ nl ++ ",-," ++ nl)%string.
Proof.
  split; [reflexivity|]. split; [cbn; intuition discriminate|]. split.
  - intros r v Hr Hv. cbn in Hr. repeat destruct Hr as [<-|Hr]; try contradiction Hr; cbn in Hv; repeat destruct Hv as [<-|Hv]; try contradiction Hv;
      (split; [split; intros [y Hy]; discriminate Hy|intros [y Hy]; discriminate Hy]).
  - repeat split.
Qed.
(** the restriction on lines of dashes is needed: such a line is not a record *)
Theorem C45_dashes_refuted : exists F', yields (ex_E 5) true [] "main" (ex_files [(["main"], "---" ++ nl ++ "a,b" ++ nl, 1)]%string) (Ok [[lit "a"; lit "b"]]) F'.
Proof. eexists. apply (ex_run_yields (ex_E 5) true [] "main" _ false [["main"]]%string). vm_compute. reflexivity. Qed.
Print Assumptions C45_dashes_refuted.
(** C46 in a program with imports, definitions and fills *)
Definition ex_indep : fs := ex_files [(["main"], "use lib" ++ nl ++ "y := 2" ++ nl ++ "---" ++ nl ++ "![[fill=2]]=SUM(A1 * (2+B7)),=x" ++ nl, 1); (["lib"], "x := 1" ++ nl ++ "---" ++ nl, 1)]%string.
Example C46_example : exists F', yields (ex_E 5) true [] "main" ex_indep (Ok [[lit "=SUM((A1 * (2 + B7)))"; lit "=1"]; [lit "=SUM((A1 * (2 + B7)))"; lit "=1"]]) F'.
Proof. eexists. apply (ex_run_yields (ex_E 5) true [] "main" _ false [["lib"]; ["main"]]%string). vm_compute. reflexivity. Qed.
Example C46_independent : independent_text ex_co [lit "x"] (lit "=SUM(A1, 2) * y") /\ ~ independent_text ex_co [lit "x"] (lit "=x + 1").
Proof.
  split.
  - split; [split; intros [r Hr]; discriminate|]. intros _. eexists. split; [vm_compute; reflexivity|]. cbn. intros x [<-|[<-|[]]] [H|[]]; discriminate.
  - intros [_ H]. destruct H as [n [P N]]; [eexists; reflexivity|]. vm_compute in P. injection P as <-. apply (N (lit "x")); cbn; auto.
Qed.
(** *** C64, C65: a run of the whole program, over an older file and with a backup *)
Definition ex_whole (backup : bool) (F : files) : main_result * files :=
  match ex_run (ex_E 5) true [] "main" ex_indep false [["lib"]; ["main"]]%string with
  | Some (r, _) => main_program (fun t => Some (csv_read t)) (fun _ => true) true ex_now backup true (file_named "out.csv") r F
  | None => (Hangs, F)
  end.
Example C64_run_example : exists F1, ex_whole true (one_file (file_named "out.csv") "old,b,c") = (Done, F1)
  /\ F1 (file_named "out.csv") = Some (lit ("=SUM((A1 * (2 + B7))),=1" ++ nl ++ "=SUM((A1 * (2 + B7))),=1" ++ nl)%string)
  /\ F1 (file_named "out-2024_03_07.csv") = Some (lit "old,b,c").
Proof. eexists. split; [vm_compute; reflexivity|]. split; vm_compute; reflexivity. Qed.
