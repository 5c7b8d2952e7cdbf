(** * EditProofs2: rows added at the end; fills written out by hand. *)
From Verif Require Import Base BaseProofs Csvp Ast AstParser Eval EvalSpec EvalProofs EvalRounds EvalAgree Options Sheet SheetSpec SheetProofs SheetProofs2 SheetProofs3 PropSheet PropVariables PropModules
  SameSpec SameProofs EditSpec EditProofs.

(** ** Blocks *)
Lemma blocks_app left : forall a b start, blocks left start (a ++ b) = blocks left start a ++ blocks left (start + total left a) b.
Proof.
  induction a as [|r a IH]; intros b start; cbn [blocks app]; [unfold total; cbn; rewrite Nat.add_0_r; reflexivity|]. rewrite IH, <- app_assoc, total_cons, Nat.add_assoc. reflexivity.
Qed.
Lemma relocate_alike start r r' : alike_row r r' -> alike_row (relocate start r) (relocate start r').
Proof.
  intros [O [F [V C]]]. unfold relocate. rewrite F. destruct (row_fill r') as [f|] eqn:Ef; [|unfold alike_row; rewrite F; auto]. unfold alike_row, with_fill. cbn [row_options row_fill row_var row_cells]. auto.
Qed.
Lemma blocks_alike left left' : forall a b start, Forall2 alike_row a b -> (forall r, In r a -> ~ unbounded r) -> Forall2 alike_row (blocks left start a) (blocks left' start b).
Proof.
  intros a b start H. revert start. induction H as [|r r' a b Hr _ IH]; intros start N; [constructor|]. cbn [blocks].
  assert (Cp : copies left r = copies left' r').
  { unfold copies. rewrite (proj1 (proj2 Hr)). specialize (N r (or_introl eq_refl)). destruct (row_fill r') as [f|] eqn:Ef; [|reflexivity]. destruct (fill_amount f) eqn:Ea; [reflexivity|].
    destruct N. exists f. rewrite (proj1 (proj2 Hr)). auto. }
  rewrite Cp. apply Forall2_app; [|apply IH; intros z Hz; apply N; right; exact Hz]. pose proof (relocate_alike start r r' Hr) as R. clear -R. induction (copies left' r'); cbn [repeat]; constructor; auto.
Qed.
Lemma blocks_named left x : forall rs start r, In r (blocks left start rs) -> named r x -> exists r0, In r0 rs /\ named r0 x.
Proof.
  induction rs as [|r0 rs IH]; intros start r H N; [destruct H|]. cbn [blocks] in H. apply in_app_or in H as [H|H].
  - apply repeat_spec in H. subst r. exists r0. split; [left; reflexivity|]. destruct (relocate_copy start r0) as [C1 [_ [C3 _]]]. unfold named in *. rewrite C1, C3 in N. exact N.
  - destruct (IH _ _ H N) as [r1 [H1 H2]]. exists r1. split; [right; exact H1|exact H2].
Qed.
Lemma blocks_cells left : forall rs start r, In r (blocks left start rs) -> exists r0, In r0 rs /\ row_cells r = row_cells r0.
Proof.
  induction rs as [|r0 rs IH]; intros start r H; [destruct H|]. cbn [blocks] in H. apply in_app_or in H as [H|H].
  - apply repeat_spec in H. subst r. exists r0. split; [left; reflexivity|]. apply relocate_copy.
  - destruct (IH _ _ H) as [r1 [H1 H2]]. exists r1. split; [right; exact H1|exact H2].
Qed.

(** ** Variables *)
Lemma row_variables_app : forall a b y v, row_variables y (a ++ b) v = row_variables (y + length a) b (row_variables y a v).
Proof.
  induction a as [|r a IH]; intros b y v; cbn [app row_variables length]; [rewrite Nat.add_0_r; reflexivity|]. rewrite IH, Nat.add_succ_comm. reflexivity.
Qed.
Lemma cell_variables_other x y r : forall cs i v, (forall c, In c cs -> cell_var c <> Some x) -> assoc x (cell_variables y r i cs v) = assoc x v.
Proof.
  induction cs as [|c cs IH]; intros i v N; [reflexivity|]. cbn [cell_variables]. rewrite IH by (intros d Hd; apply N; right; exact Hd).
  specialize (N c (or_introl eq_refl)). destruct (cell_var c) as [z|]; [|reflexivity]. apply assoc_insert_other. congruence.
Qed.
Lemma row_variables_other x : forall rs y v, (forall r, In r rs -> ~ named r x) -> assoc x (row_variables y rs v) = assoc x v.
Proof.
  induction rs as [|r rs IH]; intros y v N; [reflexivity|]. cbn [row_variables]. rewrite IH by (intros d Hd; apply N; right; exact Hd).
  specialize (N r (or_introl eq_refl)). rewrite cell_variables_other.
  - destruct (row_var r) as [z|] eqn:Ez; [|reflexivity]. apply assoc_insert_other. intros ->. apply N. left. exact Ez.
  - intros c Hc Ev. apply N. right. eauto.
Qed.

(** ** Evaluating rows that are alike *)
Lemma row_eval_alike ev sc k r r' o : alike_row r r' -> row_eval ev sc k r = Ok o -> exists o', row_eval ev sc k r' = Ok o' /\ alike_row o o'.
Proof.
  intros A H. apply strip_row_alike in A. pose proof (strip_row_eval ev sc k r) as E1. pose proof (strip_row_eval ev sc k r') as E2. rewrite A, E2, H in E1. cbn [omap] in E1.
  destruct (row_eval ev sc k r') as [o'| | |]; try discriminate E1. cbn [omap] in E1. exists o'. split; [reflexivity|]. apply strip_row_alike. injection E1 as E1'. symmetry. unfold strip_row at 1 2. congruence.
Qed.
Lemma main_eval_rows ev sched p ext q : main_eval ev sched p ext = Ok q -> exists t, eval_fills (pr_sheet p) = Some t
  /\ length (sheet_rows (pr_sheet q)) = length (sheet_rows t)
  /\ forall i r, nth_error (sheet_rows t) i = Some r -> exists o, nth_error (sheet_rows (pr_sheet q)) i = Some o
     /\ row_eval ev (sheet_scope {| pr_scope := pr_scope p; pr_sheet := t; pr_required := pr_required p |} ext) i r = Ok o.
Proof.
  unfold main_eval, module_eval_fills. destruct (eval_fills (pr_sheet p)) as [t|]; [|discriminate]. cbn [bind]. unfold eval_spreadsheet. cbn [pr_sheet]. set (sc := sheet_scope _ ext).
  destruct (par_collect sched _) as [rows| | |] eqn:P; try discriminate. cbn [bind]. intros [= <-]. exists t. split; [reflexivity|]. cbn [pr_sheet sheet_rows].
  apply par_collect_ok in P. split; [rewrite <- (map_length (@Ok module_error row)), <- P; clear; generalize 0; induction (sheet_rows t) as [|r l IH]; intro i; cbn [mapi length]; [reflexivity|]; rewrite IH; reflexivity|].
  intros i r Hr. pose proof (mapi_nth (row_eval ev sc) (sheet_rows t) 0 i) as M. rewrite Hr, P, nth_error_map in M. cbn [option_map Nat.add] in M.
  destruct (nth_error rows i) as [o|]; [|discriminate M]. exists o. split; [reflexivity|]. injection M as M. symmetry. exact M.
Qed.

(** ** Rows at the end *)
Lemma nth_firstn {A} : forall n (l : list A) i, i < n -> nth_error (firstn n l) i = nth_error l i.
Proof. induction n as [|n IH]; intros [|a l] [|i] H; try lia; try reflexivity. cbn [firstn nth_error]. apply IH. lia. Qed.
Section Append.
  Variables (ev : eval_env) (sched : list nat) (p p' : program) (more : list row) (ext : list (str * node)).
  Hypothesis Hord : forall a, is_order (ev_order ev a).
  Hypothesis U1 : NoDup (map fst (variables (pr_scope p))).
  Hypothesis U2 : NoDup (map fst ext).
  Hypothesis Hs : pr_scope p' = pr_scope p.
  Hypothesis Ap : appended (pr_sheet p) (pr_sheet p') more.
  Hypothesis Fe : fills_expanded (pr_sheet p) = false.
  Hypothesis Nb : forall r, In r (sheet_rows (pr_sheet p)) -> ~ unbounded r.
  Hypothesis Nn : forall r x, In r more -> named r x -> ~ reads_name p ext x /\ ~ place_name x.
  Variable q : program.
  Hypothesis Ok_ : main_eval ev sched p ext = Ok q.

  Let scope_of (p : program) (t : spreadsheet) := sheet_scope {| pr_scope := pr_scope p; pr_sheet := t; pr_required := pr_required p |} ext.
  Lemma append_rows t t' : eval_fills (pr_sheet p) = Some t -> eval_fills (pr_sheet p') = Some t' ->
    exists a b, sheet_rows t' = a ++ b /\ Forall2 alike_row (sheet_rows t) a /\ (forall r, In r b -> exists r0, In r0 more /\ row_cells r = row_cells r0)
      /\ (forall k r, In r (sheet_rows t) -> row_eval ev (scope_of p' t') k r = row_eval ev (scope_of p t) k r).
  Proof.
    intros Ef Ef'. destruct Ap as [Fx [first [Er Al]]]. assert (Fe' : fills_expanded (pr_sheet p') = false) by congruence.
    destruct (eval_fills_rows _ _ Ef Fe) as [Rt _]. destruct (eval_fills_rows _ _ Ef' Fe') as [Rt' _]. rewrite Er in Rt'. rewrite blocks_app in Rt'.
    set (left' := room (first ++ more)) in *. rewrite Nat.add_0_l in Rt'. rewrite Rt'. do 2 eexists. split; [reflexivity|].
    pose proof (blocks_alike (room (sheet_rows (pr_sheet p))) left' _ _ 0 Al Nb) as Ba. rewrite <- Rt in Ba. split; [exact Ba|]. split; [apply blocks_cells|].
    assert (V : forall x, (reads_name p ext x \/ place_name x) -> assoc x (sheet_variables t') = assoc x (sheet_variables t)).
    { intros x Kx. unfold sheet_variables. rewrite Rt', row_variables_app, row_variables_other.
      - f_equal. apply frame_variables. clear -Ba. induction Ba as [|r r' a b H _ IH]; [reflexivity|]. cbn [map]. rewrite IH, (frame_alike _ _ H). reflexivity.
      - intros r Hr Hn. destruct (blocks_named _ _ _ _ _ Hr Hn) as [r0 [H1 H2]]. destruct (Nn r0 x H1 H2) as [N1 N2]. destruct Kx; contradiction. }
    apply (rows_agree ev p ext Hord U1 U2 t (scope_of p' t') Ef).
    - intros x Kx. unfold scope_of. rewrite !sheet_scope_assoc by (cbn [pr_scope]; rewrite ?Hs; assumption). cbn [pr_scope pr_sheet]. rewrite Hs, (V x Kx). reflexivity.
    - intros f _. unfold scope_of. cbn [functions sheet_scope merge_variables pr_scope]. rewrite Hs. reflexivity.
  Qed.
  Lemma append_ok q' : main_eval ev sched p' ext = Ok q' -> exists a b, sheet_rows (pr_sheet q') = a ++ b /\ Forall2 alike_row (sheet_rows (pr_sheet q)) a.
  Proof.
    intro H'. destruct (main_eval_rows _ _ _ _ _ Ok_) as [t [Ef [L R]]]. destruct (main_eval_rows _ _ _ _ _ H') as [t' [Ef' [L' R']]].
    destruct (append_rows t t' Ef Ef') as [a [b [Ea [Al [_ X]]]]]. exists (firstn (length a) (sheet_rows (pr_sheet q'))), (skipn (length a) (sheet_rows (pr_sheet q'))). split; [symmetry; apply firstn_skipn|].
    pose proof (Forall2_len _ _ _ Al) as La. apply Forall2_nth; [rewrite firstn_length, L', Ea, app_length; lia|]. intros i o o' Ho Ho'.
    destruct (nth_both _ (sheet_rows t) i o L Ho) as [r Hr]. destruct (Forall2_nth_l _ _ _ _ _ Al Hr) as [r' [Hr' Ar]].
    assert (Li : i < length a) by (apply nth_error_Some; congruence). rewrite nth_firstn in Ho' by exact Li.
    destruct (R i r Hr) as [o1 [E1 V1]]. rewrite Ho in E1. injection E1 as <-.
    destruct (R' i r') as [o2 [E2 V2]]; [rewrite Ea, nth_error_app1 by exact Li; exact Hr'|]. rewrite Ho' in E2. injection E2 as <-.
    fold (scope_of p t) in V1. fold (scope_of p' t') in V2. rewrite <- (X i r (nth_error_In _ _ Hr)) in V1. destruct (row_eval_alike _ _ _ _ _ _ Ar V1) as [o3 [V3 A3]]. rewrite V2 in V3. injection V3 as <-. exact A3.
  Qed.
  (** the cells of the old rows evaluate *)
  Lemma append_old t t' i r' j c' n : eval_fills (pr_sheet p) = Some t -> eval_fills (pr_sheet p') = Some t' -> i < length (sheet_rows t) ->
    nth_error (sheet_rows t') i = Some r' -> nth_error (row_cells r') j = Some c' -> cell_ast c' = Some n ->
    is_ok (ast_eval (ev_fuel ev) (ev_order ev {| addr_x := j; addr_y := i |}) (scope_of p' t') (Some {| addr_x := j; addr_y := i |}) n) = true.
  Proof.
    intros Ef Ef' Li Hr' Hc' Hn. destruct (append_rows t t' Ef Ef') as [a [b [Ea [Al [_ X]]]]]. pose proof (Forall2_len _ _ _ Al) as La.
    rewrite Ea, nth_error_app1 in Hr' by lia. destruct (nth_error (sheet_rows t) i) as [r|] eqn:Hr; [|apply nth_error_None in Hr; lia]. destruct (Forall2_nth_l _ _ _ _ _ Al Hr) as [r2 [Hr2 Ar]]. rewrite Hr' in Hr2. injection Hr2 as <-.
    destruct (main_eval_rows _ _ _ _ _ Ok_) as [t0 [Ef0 [L R]]]. rewrite Ef in Ef0. injection Ef0 as <-. destruct (R i r Hr) as [o [_ V]]. fold (scope_of p t) in V. rewrite <- (X i r (nth_error_In _ _ Hr)) in V.
    destruct (row_eval_alike _ _ _ _ _ _ Ar V) as [o' [V' _]]. unfold row_eval in V'. destruct (eval_cells ev (scope_of p' t') i 0 (row_cells r')) as [cs| | |] eqn:Ec; try discriminate V'.
    clear -Ec Hc' Hn. assert (G : forall l x cs j, eval_cells ev (scope_of p' t') i x l = Ok cs -> nth_error l j = Some c' ->
      is_ok (ast_eval (ev_fuel ev) (ev_order ev {| addr_x := x + j; addr_y := i |}) (scope_of p' t') (Some {| addr_x := x + j; addr_y := i |}) n) = true).
    { induction l as [|c l IH]; intros x cs0 [|k] E0 Hk; try discriminate Hk; cbn [eval_cells nth_error] in *; cbv zeta in E0.
      - injection Hk as ->. rewrite Hn in E0. rewrite Nat.add_0_r. destruct (ast_eval _ _ _ _ n); try discriminate E0. reflexivity.
      - match type of E0 with bind ?u _ = _ => destruct u; try discriminate E0 end. cbn [bind] in E0. destruct (eval_cells ev _ i (S x) l) as [cs1| | |] eqn:E1; try discriminate E0.
        specialize (IH (S x) cs1 k E1 Hk). replace (x + S k) with (S x + k) by lia. exact IH. }
    exact (G _ 0 cs j Ec Hc').
  Qed.
  Lemma append_err e : main_eval ev sched p' ext = Err e ->
    (e = MultipleInfiniteFills /\ eval_fills (pr_sheet p') = None) \/ exists a k, e = CellEval a k /\ length (sheet_rows (pr_sheet q)) <= addr_y a.
  Proof.
    intro H'. destruct (C52_failure _ _ _ _ _ H') as [N|[p2 [a [r' [c' [n [k [M' [-> [Hr' [Hc' [Hn Hk]]]]]]]]]]]]; [left; exact N|]. right. exists a, k. split; [reflexivity|].
    unfold module_eval_fills in M'. destruct (eval_fills (pr_sheet p')) as [t'|] eqn:Ef'; [|discriminate M']. injection M' as <-. cbn [pr_sheet pr_scope pr_required] in *.
    destruct (main_eval_rows _ _ _ _ _ Ok_) as [t [Ef [L _]]]. destruct (le_lt_dec (length (sheet_rows (pr_sheet q))) (addr_y a)) as [G|G]; [exact G|]. exfalso. rewrite L in G.
    pose proof (append_old t t' (addr_y a) r' (addr_x a) c' n Ef Ef' G Hr' Hc' Hn) as O. destruct a as [ax ay]. cbn [addr_x addr_y] in *. unfold scope_of in O. rewrite Hk in O. discriminate O.
  Qed.
  Lemma append_text : (forall r c, In r more -> In c (row_cells r) -> cell_ast c = None) -> has_multiple_infinite_expands (pr_sheet p') = false -> exists q', main_eval ev sched p' ext = Ok q'.
  Proof.
    intros No Mi. destruct (main_eval_rows _ _ _ _ _ Ok_) as [t [Ef [L _]]]. destruct (eval_fills (pr_sheet p')) as [t'|] eqn:Ef'.
    - assert (M : module_eval_fills p' = Ok {| pr_scope := pr_scope p'; pr_sheet := t'; pr_required := pr_required p' |}) by (unfold module_eval_fills; rewrite Ef'; reflexivity).
      apply (sheet_evaluates ev sched p' ext _ M). cbn [pr_sheet]. intros i r' j c' n Hr' Hc' Hn. fold (scope_of p' t').
      destruct (le_lt_dec (length (sheet_rows t)) i) as [G|G]; [|apply (append_old t t' i r' j c' n Ef Ef' G Hr' Hc' Hn)]. exfalso.
      destruct (append_rows t t' Ef Ef') as [a [b [Ea [Al [Cb _]]]]]. pose proof (Forall2_len _ _ _ Al) as La. rewrite Ea, nth_error_app2 in Hr' by lia.
      destruct (Cb r' (nth_error_In _ _ Hr')) as [r0 [H0 Ec]]. rewrite Ec in Hc'. rewrite (No r0 c' H0 (nth_error_In _ _ Hc')) in Hn. discriminate Hn.
    - unfold eval_fills in Ef'. rewrite Mi in Ef'. destruct (fills_expanded (pr_sheet p')); discriminate Ef'.
  Qed.
End Append.

(** ** A fill written out *)
(** rows up to where their fill is *)
Definition bare (r : row) : row := without_fill (strip_row r).
Lemma bare_contents r r' : bare r = bare r' <-> same_contents r r'.
Proof.
  unfold bare, without_fill, strip_row, same_contents. cbn [row_cells row_options row_fill row_var]. rewrite <- (map_eq_Forall2 _ _ strip_cell_alike). split.
  - intro H. injection H as H1 H2 H3. auto.
  - intros [-> [-> ->]]. reflexivity.
Qed.
Lemma bare_alike r r' : alike_row r r' -> bare r = bare r'.
Proof. intro H. apply strip_row_alike in H. unfold bare. rewrite H. reflexivity. Qed.
Lemma bare_eval ev sc y r : row_eval ev sc y (bare r) = omap bare (row_eval ev sc y r).
Proof.
  unfold bare. transitivity (omap without_fill (row_eval ev sc y (strip_row r))).
  - unfold row_eval. cbn [without_fill row_cells row_options row_fill row_var]. destruct (eval_cells ev sc y 0 (row_cells (strip_row r))); reflexivity.
  - rewrite strip_row_eval. destruct (row_eval ev sc y r); reflexivity.
Qed.
(** rows with the same contents in the same scope *)
Lemma same_rows_eval ev sched sc rs rs' : map bare rs = map bare rs' ->
  omap (map bare) (par_collect sched (mapi (row_eval ev sc) 0 rs)) = omap (map bare) (par_collect sched (mapi (row_eval ev sc) 0 rs')).
Proof.
  intro H. rewrite <- !par_collect_omap, !map_mapi.
  rewrite (mapi_eq (fun i a => omap bare (row_eval ev sc i a)) (fun i a => row_eval ev sc i (bare a)) rs) by (intros; symmetry; apply bare_eval).
  rewrite (mapi_eq (fun i a => omap bare (row_eval ev sc i a)) (fun i a => row_eval ev sc i (bare a)) rs') by (intros; symmetry; apply bare_eval).
  rewrite <- (mapi_map (row_eval ev sc) bare rs), <- (mapi_map (row_eval ev sc) bare rs'), H. reflexivity.
Qed.
Lemma unnamed_variables : forall rs y v, Forall unnamed rs -> row_variables y rs v = v.
Proof.
  intros rs y v H. revert y v. induction H as [|r rs Hr _ IH]; intros y v; [reflexivity|]. cbn [row_variables]. rewrite IH.
  destruct (row_var r) as [z|] eqn:Ez; [destruct (Hr z); left; exact Ez|].
  assert (C : forall c, In c (row_cells r) -> cell_var c = None) by (intros c Hc; destruct (cell_var c) as [z|] eqn:Ec; [destruct (Hr z); right; eauto|reflexivity]).
  revert v. generalize 0. induction (row_cells r) as [|c cs IHc]; intros i v; [reflexivity|]. cbn [cell_variables]. rewrite (C c (or_introl eq_refl)). apply IHc. intros d Hd. apply C. right. exact Hd.
Qed.
Lemma no_fill_blocks left r : row_fill r = None -> forall n start, blocks left start (repeat r n) = repeat r n /\ total left (repeat r n) = n.
Proof.
  intros N. induction n as [|n IH]; intro start; [split; reflexivity|]. cbn [repeat blocks]. rewrite total_cons. unfold relocate, copies. rewrite N. destruct (IH (start + 1)) as [-> ->]. split; reflexivity.
Qed.

Section WriteOut.
  Variables (ev : eval_env) (sched : list nat) (p p' : program) (ext : list (str * node)).
  Hypothesis Hs : pr_scope p' = pr_scope p.
  Hypothesis Wo : written_out (pr_sheet p) (pr_sheet p').
  Hypothesis Fe : fills_expanded (pr_sheet p) = false.
  Definition sheet_contents (s : spreadsheet) : list row := map bare (sheet_rows s).
  Lemma total_written left a r b n start : row_fill r = Some {| fill_amount := Some n; start_row := start |} ->
    total left (a ++ [r] ++ b) = total left (a ++ repeat (without_fill r) n ++ b).
  Proof.
    intro Fr. rewrite !total_app, total_cons. destruct (no_fill_blocks left (without_fill r) eq_refl n 0) as [_ ->]. unfold copies. rewrite Fr. cbn [fill_amount]. change (total left []) with 0. lia.
  Qed.
  Lemma write_out_eval : omap (fun q => sheet_contents (pr_sheet q)) (main_eval ev sched p' ext) = omap (fun q => sheet_contents (pr_sheet q)) (main_eval ev sched p ext).
  Proof.
    destruct Wo as [a [r [b [n [start [Un [Fr [Fx [Er Al]]]]]]]]]. assert (Fe' : fills_expanded (pr_sheet p') = false) by congruence.
    (* the sheet as it is written out *)
    set (w := {| sheet_rows := a ++ repeat (without_fill r) n ++ b; fills_expanded := false |}).
    assert (As : alike_sheet w (pr_sheet p')) by (split; [symmetry; exact Fe'|exact Al]).
    assert (Bs : omap (fun q => sheet_contents (pr_sheet q)) (main_eval ev sched p' ext) = omap (fun q => sheet_contents (pr_sheet q)) (main_eval ev sched {| pr_scope := pr_scope p; pr_sheet := w; pr_required := pr_required p' |} ext)).
    { apply strip_sheet_alike in As. set (pw := {| pr_scope := pr_scope p; pr_sheet := w; pr_required := pr_required p' |}).
      assert (E1 : strip_program p' = strip_program pw) by (unfold strip_program; cbn [pr_sheet pr_scope pr_required pw]; rewrite Hs, As; reflexivity).
      pose proof (strip_main_eval ev sched p' ext) as E2. rewrite E1, strip_main_eval in E2. apply (f_equal (omap (fun q => map without_fill (sheet_rows (pr_sheet q))))) in E2.
      destruct (main_eval ev sched p' ext), (main_eval ev sched pw ext); cbn [omap] in *; try congruence. f_equal. injection E2 as E2. cbn [strip_program pr_sheet strip_sheet sheet_rows] in E2. rewrite !map_map in E2. symmetry. exact E2. }
    rewrite Bs. clear Bs As. unfold main_eval, module_eval_fills. cbn [pr_sheet].
    assert (Mi : forall l1 l2 saw, multiple_infinite saw (l1 ++ [r] ++ l2) = multiple_infinite saw (l1 ++ repeat (without_fill r) n ++ l2)).
    { intros l1 l2. induction l1 as [|x l1 IH]; intro saw; cbn [app].
      - cbn [multiple_infinite]. unfold is_infinite at 1. rewrite Fr. cbn [fill_amount]. clear. induction n as [|k IH]; cbn [repeat app]; [reflexivity|]. cbn [multiple_infinite]. unfold is_infinite at 1. cbn [row_fill without_fill]. exact IH.
      - cbn [multiple_infinite]. cbn [app] in IH. rewrite !IH. reflexivity. }
    assert (Ev : forall s, fills_expanded s = false -> eval_fills s = if multiple_infinite false (sheet_rows s) then None else Some {| sheet_rows := blocks (room (sheet_rows s)) 0 (sheet_rows s); fills_expanded := true |}).
    { intros s F. destruct (eval_fills s) as [t|] eqn:Et.
      - pose proof Et as Et2. unfold eval_fills in Et2. rewrite F in Et2. unfold has_multiple_infinite_expands in Et2. destruct (multiple_infinite false (sheet_rows s)); [discriminate Et2|].
        destruct (eval_fills_rows _ _ Et F) as [R1 R2]. f_equal. destruct t as [tr tf]. cbn [sheet_rows fills_expanded] in *. congruence.
      - unfold eval_fills in Et. rewrite F in Et. unfold has_multiple_infinite_expands in Et. destruct (multiple_infinite false (sheet_rows s)); [reflexivity|discriminate Et]. }
    rewrite !Ev by (exact Fe || reflexivity). cbn [sheet_rows w]. rewrite Er, <- Mi. destruct (multiple_infinite false (a ++ [r] ++ b)); [reflexivity|]. cbn [bind].
    assert (Rm : room (a ++ repeat (without_fill r) n ++ b) = room (a ++ [r] ++ b)) by (unfold room; rewrite (total_written 0 a r b n start Fr); reflexivity). rewrite Rm. set (left := room (a ++ [r] ++ b)). clearbody left.
    rewrite !blocks_app. destruct (no_fill_blocks left (without_fill r) eq_refl n (0 + total left a)) as [-> ->].
    assert (Br : blocks left (0 + total left a) [r] = repeat (relocate (0 + total left a) r) n).
    { cbn [blocks]. rewrite app_nil_r. unfold copies. rewrite Fr. reflexivity. }
    rewrite Br. assert (T1 : total left [r] = n) by (rewrite total_cons; unfold copies; rewrite Fr; cbn [fill_amount]; unfold total; cbn; lia). rewrite T1. clear Br T1.
    set (A := blocks left 0 a). set (B := blocks left (0 + total left a + n) b). set (rr := relocate (0 + total left a) r).
    assert (Vs : row_variables 0 (A ++ repeat (without_fill r) n ++ B) [] = row_variables 0 (A ++ repeat rr n ++ B) []).
    { rewrite !row_variables_app, !repeat_length. f_equal.
      assert (U1 : Forall unnamed (repeat (without_fill r) n)) by (apply Forall_forall; intros z Hz; apply repeat_spec in Hz; subst z; exact Un).
      assert (U2 : Forall unnamed (repeat rr n)).
      { apply Forall_forall. intros z Hz. apply repeat_spec in Hz. subst z. intros x Hx. apply (Un x). destruct (relocate_copy (0 + total left a) r) as [C1 [_ [C3 _]]]. unfold named in *. fold rr in C1, C3. rewrite C1, C3 in Hx. exact Hx. }
      rewrite (unnamed_variables _ _ _ U1), (unnamed_variables _ _ _ U2). reflexivity. }
    unfold eval_spreadsheet, sheet_scope, sheet_variables. cbn [pr_scope pr_sheet pr_required sheet_rows fills_expanded]. rewrite Vs. set (sc := merge_variables (merge_variables (pr_scope p) _) ext).
    assert (Bb : map bare (A ++ repeat (without_fill r) n ++ B) = map bare (A ++ repeat rr n ++ B)).
    { rewrite !map_app, !map_repeat. do 3 f_equal. apply bare_contents. destruct (relocate_copy (0 + total left a) r) as [C1 [C2 [C3 _]]]. fold rr in C1, C2, C3. unfold same_contents. cbn [without_fill row_cells row_options row_var].
      rewrite C1, C2, C3. split; [reflexivity|]. split; [reflexivity|]. clear. induction (row_cells r) as [|c cs IH]; constructor; [|exact IH]. repeat split. }
    pose proof (same_rows_eval ev sched sc _ _ Bb) as X.
    destruct (par_collect sched (mapi (row_eval ev sc) 0 (A ++ repeat (without_fill r) n ++ B))), (par_collect sched (mapi (row_eval ev sc) 0 (A ++ repeat rr n ++ B))); cbn [omap bind] in *; try congruence.
    unfold sheet_contents. cbn [pr_sheet sheet_rows]. exact X.
  Qed.
End WriteOut.
