(** * RenameProofs: evaluation commutes with renaming. *)
From Coq Require Import Permutation.
From Verif Require Import Base BaseProofs Csvp Ast AstProofs Eval EvalSpec Options CellParser Sheet SheetSpec SheetProofs SheetProofs2 PropVariables SameSpec SameProofs RenameSpec.

Definition rename_err (m : renaming) (e : eval_error) : eval_error :=
  {| ee_function := rename m (ee_function e); ee_expected := ee_expected e; ee_received := ee_received e |}.
Definition rmap {E E' A B} (f : A -> B) (g : E -> E') (r : outcome E A) : outcome E' B :=
  match r with Ok a => Ok (f a) | Err e => Err (g e) | Panic => Panic | NoFuel => NoFuel end.
Lemma rename_call m args f : rename m (NCall args f) = NCall (map (rename m) args) (rn_fn m f).
Proof. reflexivity. Qed.

Lemma forallb_eq {A B} (p : B -> bool) (q : A -> bool) (g : A -> B) : (forall a, p (g a) = q a) -> forall l, forallb p (map g l) = forallb q l.
Proof. intros H. induction l as [|a l IH]; [reflexivity|]. cbn [map forallb]. rewrite H, IH. reflexivity. Qed.

Section Rename.
  Variable m : renaming.
  Variables (vi fi : str -> str).
  Hypothesis V1 : forall x, vi (rn_value m x) = x.
  Hypothesis V2 : forall x, rn_value m (vi x) = x.
  Hypothesis F1 : forall x, fi (rn_fn m x) = x.
  Hypothesis F2 : forall x, rn_fn m (fi x) = x.
  Hypothesis Pl : forall x, place_name x -> rn_value m x = x.

  Lemma eqb_value x y : str_eqb (rn_value m x) (rn_value m y) = str_eqb x y.
  Proof. destruct (str_eqb_spec x y) as [->|N]; [destruct (str_eqb_spec (rn_value m y) (rn_value m y)); congruence|]. destruct (str_eqb_spec (rn_value m x) (rn_value m y)) as [X|]; [|reflexivity]. destruct N. rewrite <- (V1 x), <- (V1 y), X. reflexivity. Qed.
  Lemma eqb_fn x y : str_eqb (rn_fn m x) (rn_fn m y) = str_eqb x y.
  Proof. destruct (str_eqb_spec x y) as [->|N]; [destruct (str_eqb_spec (rn_fn m y) (rn_fn m y)); congruence|]. destruct (str_eqb_spec (rn_fn m x) (rn_fn m y)) as [X|]; [|reflexivity]. destruct N. rewrite <- (F1 x), <- (F1 y), X. reflexivity. Qed.
  Lemma in_value x l : str_in (rn_value m x) (map (rn_value m) l) = str_in x l.
  Proof. induction l as [|y l IH]; [reflexivity|]. unfold str_in in *. cbn [map existsb]. rewrite eqb_value, IH. reflexivity. Qed.
  Lemma in_fn x l : str_in (rn_fn m x) (map (rn_fn m) l) = str_in x l.
  Proof. induction l as [|y l IH]; [reflexivity|]. unfold str_in in *. cbn [map existsb]. rewrite eqb_fn, IH. reflexivity. Qed.

  Definition rename_refs (r : references) : references := {| ref_functions := map (rn_fn m) (ref_functions r); ref_variables := map (rn_value m) (ref_variables r) |}.
  Lemma insert_value x l : set_insert (rn_value m x) (map (rn_value m) l) = map (rn_value m) (set_insert x l).
  Proof. unfold set_insert. rewrite in_value. destruct (str_in x l); [reflexivity|]. rewrite map_app. reflexivity. Qed.
  Lemma insert_fn x l : set_insert (rn_fn m x) (map (rn_fn m) l) = map (rn_fn m) (set_insert x l).
  Proof. unfold set_insert. rewrite in_fn. destruct (str_in x l); [reflexivity|]. rewrite map_app. reflexivity. Qed.
  Lemma eqb_refs a b : refs_eqb (rename_refs a) (rename_refs b) = refs_eqb a b.
  Proof.
    assert (Sv : forall l l', set_eqb (map (rn_value m) l) (map (rn_value m) l') = set_eqb l l').
    { intros l l'. unfold set_eqb. f_equal; apply forallb_eq; intro x; apply in_value. }
    assert (Sf : forall l l', set_eqb (map (rn_fn m) l) (map (rn_fn m) l') = set_eqb l l').
    { intros l l'. unfold set_eqb. f_equal; apply forallb_eq; intro x; apply in_fn. }
    unfold refs_eqb. cbn [rename_refs ref_functions ref_variables]. rewrite Sv, Sf. reflexivity.
  Qed.
  Lemma empty_rename a : refs_is_empty (rename_refs a) = refs_is_empty a.
  Proof. unfold refs_is_empty. cbn [rename_refs ref_functions ref_variables]. destruct (ref_functions a), (ref_variables a); reflexivity. Qed.

  Lemma replace_rename x v : forall n, replace_variable (rn_value m x) (rename m v) (rename m n) = rename m (replace_variable x v n).
  Proof.
    apply node_induction; intros; try reflexivity.
    - cbn [rename replace_variable]. congruence.
    - rewrite rename_call. rewrite !EvalProofs.replace_call, rename_call. f_equal. rewrite !map_map. apply map_ext_in. rewrite Forall_forall in H. exact H.
    - cbn [rename replace_variable]. congruence.
    - cbn [rename replace_variable]. rewrite eqb_value. destruct (str_eqb x r); reflexivity.
    - destruct v0; cbn [rename replace_variable]; try reflexivity. rewrite H by reflexivity. reflexivity.
  Qed.
  Lemma params_rename : forall ps args b, replace_params (map (rn_value m) ps) (map (rename m) args) (rename m b) = rename m (replace_params ps args b).
  Proof. induction ps as [|p ps IH]; intros [|a args] b; cbn [map replace_params]; try reflexivity. rewrite replace_rename. apply IH. Qed.
  Lemma function_rename f fn : forall n, call_function (rn_fn m f) (rename m fn) (rename m n) = rmap (rename m) (rename_err m) (call_function f fn n).
  Proof.
    apply node_induction; intros; try reflexivity.
    - rewrite rename_call. cbn [call_function]. rewrite eqb_fn. destruct (str_eqb n f).
      + destruct fn; try reflexivity. cbn [rename]. rewrite !map_length. destruct (_ =? _); cbn [rmap]; [|reflexivity]. rewrite params_rename. reflexivity.
      + match goal with |- bind (?g (map _ _)) _ = rmap _ _ (bind (?h a) _) => assert (X : g (map (rename m) a) = rmap (map (rename m)) (rename_err m) (h a)) end.
        { clear n. induction H as [|b bs Hb Hbs IH]; [reflexivity|]. cbn [map]. rewrite Hb. destruct (call_function f fn b); cbn [rmap bind]; try reflexivity. rewrite IH. match goal with |- context [rmap _ _ ?t] => destruct t end; reflexivity. }
        rewrite X. match goal with |- context [rmap (map _) _ ?t] => destruct t end; reflexivity.
    - cbn [rename call_function]. rewrite H. destruct (call_function f fn l); cbn [rmap bind]; try reflexivity. rewrite H0. destruct (call_function f fn r); reflexivity.
    - destruct v; cbn [rename call_function]; try reflexivity. rewrite H by reflexivity. match goal with |- context [rmap _ _ ?t] => destruct t end; reflexivity.
  Qed.

  Variables sc sc' : scope.
  Hypothesis Hv : renamed_definitions m (rn_value m) (variables sc) (variables sc').
  Hypothesis Hf : renamed_definitions m (rn_fn m) (functions sc) (functions sc').

  Lemma known_value x : has_key (rn_value m x) (variables sc') = has_key x (variables sc).
  Proof. unfold has_key. rewrite Hv. destruct (assoc x (variables sc)); reflexivity. Qed.
  Lemma known_fn x : has_key (rn_fn m x) (functions sc') = has_key x (functions sc).
  Proof. unfold has_key. rewrite Hf. destruct (assoc x (functions sc)); reflexivity. Qed.
  Lemma extract_rename : forall n acc, extract_dfs sc' (rename m n) (rename_refs acc) = rename_refs (extract_dfs sc n acc).
  Proof.
    apply (node_induction (fun n => forall acc, extract_dfs sc' (rename m n) (rename_refs acc) = rename_refs (extract_dfs sc n acc))); intros; try reflexivity.
    - cbn [rename extract_dfs]. auto.
    - rewrite rename_call. cbn [extract_dfs]. rewrite known_fn.
      assert (A : (if has_key n (functions sc) then {| ref_functions := set_insert (rn_fn m n) (ref_functions (rename_refs acc)); ref_variables := ref_variables (rename_refs acc) |} else rename_refs acc)
        = rename_refs (if has_key n (functions sc) then {| ref_functions := set_insert n (ref_functions acc); ref_variables := ref_variables acc |} else acc)).
      { destruct (has_key n (functions sc)); [|reflexivity]. unfold rename_refs. cbn [ref_functions ref_variables]. rewrite insert_fn. reflexivity. }
      rewrite A. clear A. generalize (if has_key n (functions sc) then {| ref_functions := set_insert n (ref_functions acc); ref_variables := ref_variables acc |} else acc).
      clear acc. induction H as [|b bs Hb Hbs IH]; intro acc; [reflexivity|]. cbn [map]. rewrite Hb. apply IH.
    - cbn [rename extract_dfs]. rewrite H, H0. reflexivity.
    - cbn [rename extract_dfs]. rewrite known_value. destruct (has_key r (variables sc)); [|reflexivity]. unfold rename_refs. cbn [ref_functions ref_variables]. rewrite insert_value. reflexivity.
    - destruct v; cbn [rename extract_dfs]; auto.
  Qed.
  Lemma functions_rename : forall fs n, eval_functions sc' (map (rn_fn m) fs) (rename m n) = rmap (rename m) (rename_err m) (eval_functions sc fs n).
  Proof.
    induction fs as [|f fs IH]; intro n; cbn [map eval_functions]; [reflexivity|]. rewrite Hf. destruct (assoc f (functions sc)) as [fn|]; cbn [option_map]; [|apply IH].
    rewrite function_rename. destruct (call_function f fn n); cbn [rmap bind]; auto.
  Qed.
  Lemma into_rename v pos : into_ast (match v with VAst a => VAst (rename m a) | _ => v end) pos = rmap (rename m) (fun u : unit => u) (into_ast v pos).
  Proof.
    assert (R : forall x, place_name x -> NRef x = rename m (NRef x)) by (intros x H; cbn [rename]; rewrite (Pl x H); reflexivity).
    destruct pos as [a|], v; cbn [into_ast]; try (destruct (fill_contains _ _)); try reflexivity; cbn [rmap]; (apply f_equal; apply R; clear).
    all: first [apply place_address|right; left; do 3 eexists; apply show_col_range_spec|right; right; do 2 eexists; apply show_row_spec|right; right; do 2 eexists; apply show_row_range_spec].
  Qed.
  Lemma value_rename pos x : variable_node sc' pos (rn_value m x) = option_map (rmap (rename m) (fun u => u)) (variable_node sc pos x).
  Proof.
    unfold variable_node. rewrite Hv. destruct (assoc x (variables sc)) as [n|]; [|reflexivity]. cbn [option_map]. destruct n; try reflexivity. cbn [rename]. rewrite into_rename. reflexivity.
  Qed.
  Definition rename_map (l : list (str * node)) : list (str * node) := map (fun kv => (rn_value m (fst kv), rename m (snd kv))) l.
  Lemma resolve_rename pos : forall xs, resolve_variables sc' pos (map (rn_value m) xs) = rmap rename_map (rename_err m) (resolve_variables sc pos xs).
  Proof.
    induction xs as [|x xs IH]; [reflexivity|]. cbn [map resolve_variables]. rewrite value_rename. destruct (variable_node sc pos x) as [[v| | |]|]; cbn [option_map rmap]; try reflexivity; [|exact IH].
    rewrite IH. destruct (resolve_variables sc pos xs); reflexivity.
  Qed.
  Lemma variables_rename : forall l n, eval_variables (rename_map l) (rename m n) = rename m (eval_variables l n).
  Proof. induction l as [|[x v] l IH]; intro n; [reflexivity|]. cbn [rename_map map fst snd eval_variables]. rewrite replace_rename. apply IH. Qed.
  (** the orders, with the new names *)
  Definition rename_order (ord : nat -> list str -> list str) : nat -> list str -> list str :=
    fun k l => if Nat.even k then map (rn_value m) (ord k (map vi l)) else map (rn_fn m) (ord k (map fi l)).
  Lemma rename_order_ok ord : is_order ord -> is_order (rename_order ord).
  Proof.
    intros H k l. unfold rename_order. destruct (Nat.even k).
    - eapply Permutation_trans; [apply Permutation_map; apply H|]. rewrite map_map, (map_ext _ (fun x => x)), map_id by apply V2. reflexivity.
    - eapply Permutation_trans; [apply Permutation_map; apply H|]. rewrite map_map, (map_ext _ (fun x => x)), map_id by apply F2. reflexivity.
  Qed.
  Lemma rename_order_values ord k l : rename_order ord (2 * k) (map (rn_value m) l) = map (rn_value m) (ord (2 * k) l).
  Proof. unfold rename_order. replace (Nat.even (2 * k)) with true by (rewrite Nat.even_mul; reflexivity). rewrite map_map, (map_ext (fun x => vi (rn_value m x)) (fun x => x)), map_id by apply V1. reflexivity. Qed.
  Lemma rename_order_fns ord k l : rename_order ord (2 * k + 1) (map (rn_fn m) l) = map (rn_fn m) (ord (2 * k + 1) l).
  Proof. unfold rename_order. replace (Nat.even (2 * k + 1)) with false by (rewrite Nat.even_add, Nat.even_mul; reflexivity). rewrite map_map, (map_ext (fun x => fi (rn_fn m x)) (fun x => x)), map_id by apply F1. reflexivity. Qed.
  (** [ord'] orders the new names as [ord] does the old ones *)
  Definition follows (ord ord' : nat -> list str -> list str) : Prop :=
    (forall k l, ord' (2 * k) (map (rn_value m) l) = map (rn_value m) (ord (2 * k) l)) /\ (forall k l, ord' (2 * k + 1) (map (rn_fn m) l) = map (rn_fn m) (ord (2 * k + 1) l)).
  Lemma loop_rename ord ord' pos : follows ord ord' -> forall fuel k last n, eval_loop fuel ord' k sc' pos (rename_refs last) (rename m n) = rmap (rename m) (rename_err m) (eval_loop fuel ord k sc pos last n).
  Proof.
    intros [O1 O2]. induction fuel as [|fuel IH]; intros k last n; cbn [eval_loop]; [reflexivity|]. unfold extract_references. change no_references with (rename_refs no_references) at 1 2 3 4 5 6. rewrite extract_rename, empty_rename, eqb_refs.
    change (rename_refs no_references) with no_references. destruct (_ || _); [reflexivity|]. set (refs := extract_dfs sc n no_references). cbn [rename_refs ref_variables ref_functions].
    rewrite O1, O2. unfold eval_round. rewrite resolve_rename. destruct (resolve_variables sc pos _) as [l| | |]; cbn [rmap bind]; try reflexivity.
    rewrite variables_rename, functions_rename. destruct (eval_functions sc _ _) as [n'| | |]; cbn [rmap bind]; try reflexivity. apply IH.
  Qed.
  Lemma eval_rename ord ord' pos fuel n : follows ord ord' -> ast_eval fuel ord' sc' pos (rename m n) = rmap (rename m) (rename_err m) (ast_eval fuel ord sc pos n).
  Proof. intro H. exact (loop_rename ord ord' pos H fuel 0 no_references n). Qed.

  (** ** Cells and rows *)
  (** what is compared of a cell: not where it stands in the file, nor the text of a formula *)
  Definition ren_cell (c : cell) : cell :=
    {| cell_ast := option_map (rename m) (cell_ast c); cell_field := {| f_address := {| addr_x := 0; addr_y := 0 |}; f_value := []; f_positions := [] |};
       parsed_value := match cell_ast c with Some _ => [] | None => parsed_value c end; cell_options := cell_options c; cell_var := option_map (rn_value m) (cell_var c) |}.
  Definition ren_row (r : row) : row :=
    {| row_cells := map ren_cell (row_cells r); row_options := row_options r; row_fill := row_fill r; row_var := option_map (rn_value m) (row_var r) |}.
  Definition ren_error (e : module_error) : module_error := match e with CellEval a k => CellEval a (rename_err m k) | _ => e end.
  Definition env_follows (ev ev' : eval_env) : Prop := ev_fuel ev' = ev_fuel ev /\ forall a, follows (ev_order ev a) (ev_order ev' a).
  Lemma cells_rename ev ev' y : env_follows ev ev' -> forall cs x, eval_cells ev' sc' y x (map ren_cell cs) = rmap (map ren_cell) ren_error (eval_cells ev sc y x cs).
  Proof.
    intros [Fu Fo]. induction cs as [|c cs IH]; intro x; [reflexivity|]. cbn [map eval_cells]. rewrite IH. cbn [ren_cell cell_ast cell_field parsed_value cell_options cell_var]. destruct (cell_ast c) as [n|] eqn:Ec; cbn [option_map].
    - rewrite Fu, (eval_rename _ _ _ _ _ (Fo _)). destruct (ast_eval (ev_fuel ev) _ sc _ n); cbn [rmap bind]; try reflexivity. destruct (eval_cells ev sc y (S x) cs); reflexivity.
    - cbn [bind]. destruct (eval_cells ev sc y (S x) cs); cbn [rmap bind map]; try reflexivity.
  Qed.
  Lemma row_rename ev ev' y r : env_follows ev ev' -> row_eval ev' sc' y (ren_row r) = rmap ren_row ren_error (row_eval ev sc y r).
  Proof. intro H. unfold row_eval. cbn [ren_row row_cells]. rewrite (cells_rename _ _ _ H). destruct (eval_cells ev sc y 0 (row_cells r)); reflexivity. Qed.
End Rename.

(** ** Sheets *)
Lemma first_failure_rmap {E E' A B} (g : A -> B) (h : E -> E') (xs : list (outcome E A)) : forall sched,
  first_failure (map (rmap g h) xs) sched = option_map (rmap g h) (first_failure xs sched).
Proof.
  induction sched as [|i sched IH]; [reflexivity|]. cbn [first_failure]. rewrite nth_error_map. destruct (nth_error xs i) as [x|]; cbn [option_map]; [|exact IH].
  replace (is_ok (rmap g h x)) with (is_ok x) by (destruct x; reflexivity). destruct (is_ok x); [exact IH|reflexivity].
Qed.
Lemma par_collect_rmap {E E' A B} (g : A -> B) (h : E -> E') sched (xs : list (outcome E A)) : par_collect sched (map (rmap g h) xs) = rmap (map g) h (par_collect sched xs).
Proof.
  unfold par_collect. rewrite first_failure_rmap. destruct (first_failure xs sched) as [[x| | |]|]; cbn [option_map fail_as rmap]; auto. clear.
  induction xs as [|[x| | |] xs IH]; cbn [map collect rmap bind]; auto. rewrite IH. destruct (collect xs); reflexivity.
Qed.
Definition ren_sheet (m : renaming) (s : spreadsheet) : spreadsheet := {| sheet_rows := map (ren_row m) (sheet_rows s); fills_expanded := fills_expanded s |}.
Lemma ren_fills m s : eval_fills (ren_sheet m s) = option_map (ren_sheet m) (eval_fills s).
Proof.
  unfold eval_fills. cbn [fills_expanded ren_sheet]. destruct (fills_expanded s) eqn:Fe; [reflexivity|].
  assert (M : has_multiple_infinite_expands (ren_sheet m s) = has_multiple_infinite_expands s).
  { unfold has_multiple_infinite_expands. cbn [sheet_rows ren_sheet]. generalize false. induction (sheet_rows s) as [|r rs IH]; intro saw; [reflexivity|]. cbn [map multiple_infinite].
    change (is_infinite (ren_row m r)) with (is_infinite r). destruct (is_infinite r), saw; auto. }
  rewrite M. destruct (has_multiple_infinite_expands s); [reflexivity|]. cbn [option_map]. f_equal. unfold ren_sheet at 3. cbn [sheet_rows fills_expanded]. f_equal.
  assert (L : rows_left_over (ren_sheet m s) = rows_left_over s).
  { unfold rows_left_over. f_equal. cbn [sheet_rows ren_sheet]. match goal with |- fold_left ?f _ _ = _ => set (g := f) end. generalize 0 at 1 2. induction (sheet_rows s) as [|r rs IH]; intro k; [reflexivity|]. cbn [map fold_left]. apply IH. }
  rewrite L. generalize (rows_left_over s). intro left. cbn [sheet_rows ren_sheet].
  assert (X : forall rs acc k, fold_left (expand_step left) (map (ren_row m) rs) (map (ren_row m) acc, k)
     = let (a, k') := fold_left (expand_step left) rs (acc, k) in (map (ren_row m) a, k')).
  { induction rs as [|r rs IH]; intros acc k; [reflexivity|]. cbn [map fold_left]. unfold expand_step at 2 4. cbn [row_fill ren_row].
    destruct (row_fill r) as [f|].
    - cbv zeta. rewrite <- IH. f_equal. f_equal. rewrite map_app, map_repeat. reflexivity.
    - rewrite <- IH. f_equal. f_equal. rewrite map_app. reflexivity. }
  specialize (X (sheet_rows s) [] 0). cbn [map] in X. rewrite X. destruct (fold_left (expand_step left) (sheet_rows s) ([], 0)). reflexivity.
Qed.
Section Sheets.
  Variable m : renaming.
  Variables (vi fi : str -> str).
  Hypothesis V1 : forall x, vi (rn_value m x) = x.
  Hypothesis V2 : forall x, rn_value m (vi x) = x.
  Hypothesis F1 : forall x, fi (rn_fn m x) = x.
  Hypothesis Pl : forall x, place_name x -> rn_value m x = x.
  Lemma insert_renamed x n l l' : renamed_definitions m (rn_value m) l l' -> renamed_definitions m (rn_value m) (assoc_insert x n l) (assoc_insert (rn_value m x) (rename m n) l').
  Proof.
    intros H y. destruct (str_eqb_spec y x) as [->|N]; [rewrite !assoc_insert_same; reflexivity|]. rewrite (assoc_insert_other x y) by exact N.
    rewrite assoc_insert_other; [apply H|]. intro X. apply N. rewrite <- (V1 y), <- (V1 x), X. reflexivity.
  Qed.
  Lemma ren_variables s : renamed_definitions m (rn_value m) (sheet_variables s) (sheet_variables (ren_sheet m s)).
  Proof.
    unfold sheet_variables. cbn [sheet_rows ren_sheet].
    assert (C : forall r y cs i l l', renamed_definitions m (rn_value m) l l' -> renamed_definitions m (rn_value m) (cell_variables y r i cs l) (cell_variables y (ren_row m r) i (map (ren_cell m) cs) l')).
    { intros r y. induction cs as [|c cs IH]; intros i l l' H; [exact H|]. cbn [map cell_variables]. apply IH. cbn [ren_cell cell_var]. destruct (cell_var c) as [x|]; cbn [option_map]; [|exact H].
      replace (cell_reference y (ren_row m r) i (rn_value m x)) with (rename m (cell_reference y r i x)); [apply insert_renamed; exact H|]. unfold cell_reference. cbn [ren_row row_fill]. destruct (row_fill r); reflexivity. }
    assert (R : forall rs y l l', renamed_definitions m (rn_value m) l l' -> renamed_definitions m (rn_value m) (row_variables y rs l) (row_variables y (map (ren_row m) rs) l')).
    { induction rs as [|r rs IH]; intros y l l' H; [exact H|]. cbn [map row_variables]. apply IH. apply C. cbn [ren_row row_var]. destruct (row_var r) as [x|]; cbn [option_map]; [|exact H].
      replace (row_reference y (ren_row m r) (rn_value m x)) with (rename m (row_reference y r x)); [apply insert_renamed; exact H|]. unfold row_reference. cbn [ren_row row_fill]. destruct (row_fill r); reflexivity. }
    apply R. intro x. reflexivity.
  Qed.
  (** evaluating the main sheet *)
  Lemma main_rename ev ev' sched p p' ext ext' : env_follows m ev ev' ->
    NoDup (map fst (variables (pr_scope p))) -> NoDup (map fst ext) -> NoDup (map fst (variables (pr_scope p'))) -> NoDup (map fst ext') ->
    renamed_definitions m (rn_value m) (variables (pr_scope p)) (variables (pr_scope p')) -> renamed_definitions m (rn_fn m) (functions (pr_scope p)) (functions (pr_scope p')) ->
    renamed_definitions m (rn_value m) ext ext' -> pr_sheet p' = ren_sheet m (pr_sheet p) ->
    omap pr_sheet (main_eval ev' sched p' ext') = rmap (ren_sheet m) (ren_error m) (omap pr_sheet (main_eval ev sched p ext)).
  Proof.
    intros Fo U1 U2 U3 U4 Hv Hf He Es. unfold main_eval, module_eval_fills. rewrite Es, ren_fills. destruct (eval_fills (pr_sheet p)) as [t|]; [|reflexivity]. cbn [option_map bind].
    unfold eval_spreadsheet. cbn [pr_sheet ren_sheet sheet_rows fills_expanded]. rewrite mapi_map.
    set (sc := sheet_scope {| pr_scope := pr_scope p; pr_sheet := t; pr_required := pr_required p |} ext). set (sc' := sheet_scope _ ext').
    assert (Sv : renamed_definitions m (rn_value m) (variables sc) (variables sc')).
    { intro x. unfold sc, sc'. rewrite !sheet_scope_assoc by assumption. cbn [pr_scope pr_sheet]. rewrite Hv. destruct (assoc x (variables (pr_scope p))); [reflexivity|]. cbn [option_map].
      change {| sheet_rows := map (ren_row m) (sheet_rows t); fills_expanded := fills_expanded t |} with (ren_sheet m t). rewrite ren_variables. destruct (assoc x (sheet_variables t)); [reflexivity|]. cbn [option_map]. apply He. }
    rewrite (mapi_eq _ (fun i a => rmap (ren_row m) (ren_error m) (row_eval ev sc i a))) by (intros k a _; apply (row_rename m vi fi); assumption).
    rewrite <- map_mapi, par_collect_rmap. destruct (par_collect sched (mapi (row_eval ev sc) 0 (sheet_rows t))); reflexivity.
  Qed.
End Sheets.
(** nothing is renamed *)
Definition same_names : renaming := {| rn_value := fun x => x; rn_fn := fun f => f |}.
Lemma rename_same : forall n, rename same_names n = n.
Proof.
  apply node_induction; intros; try reflexivity; cbn [rename].
  - rewrite H, map_id. reflexivity.
  - f_equal. rewrite <- (map_id a) at 2. apply map_ext_in. rewrite Forall_forall in H. exact H.
  - congruence.
  - destruct v; try reflexivity. rewrite H; reflexivity.
Qed.
Lemma definitions_same l : renamed_definitions same_names (fun x => x) l l.
Proof. intro x. destruct (assoc x l); [cbn [option_map]; rewrite rename_same|]; reflexivity. Qed.
Lemma error_same e : ren_error same_names e = e.
Proof. destruct e as [|a [f e r]]; [reflexivity|]. unfold ren_error, rename_err. cbn [ee_function ee_expected ee_received]. rewrite rename_same. reflexivity. Qed.
Lemma sheets_renamed m s s' : ren_sheet same_names s' = ren_sheet m s <-> renamed_sheet m s s'.
Proof.
  assert (Cl : forall c c', ren_cell same_names c' = ren_cell m c <-> renamed_cell m c c').
  { intros c c'. unfold ren_cell, renamed_cell. assert (Ia : option_map (rename same_names) (cell_ast c') = cell_ast c') by (destruct (cell_ast c'); [cbn [option_map]; rewrite rename_same|]; reflexivity).
    assert (Iv : option_map (rn_value same_names) (cell_var c') = cell_var c') by (destruct (cell_var c'); reflexivity). rewrite Ia, Iv. split.
    - intros [= H1 H2 H3 H4]. split; [auto|]. split; [|auto]. intro N. rewrite H1, N in H2. exact H2.
    - intros [H1 [H2 [H3 H4]]]. rewrite H1, H3, H4. f_equal. destruct (cell_ast c); [reflexivity|]. apply H2. reflexivity. }
  assert (Ls : forall (A : Type) (f g : A -> A) (R : A -> A -> Prop), (forall a a', f a' = g a <-> R a a') -> forall l l', map f l' = map g l <-> Forall2 R l l').
  { intros A f g R H. induction l as [|a l IH]; intros [|a' l']; cbn [map]; split; intro X; try discriminate X; try (inversion X; fail); try constructor.
    - apply H. congruence.
    - apply IH. congruence.
    - inversion X; subst. f_equal; [apply H|apply IH]; assumption. }
  assert (Rl : forall r r', ren_row same_names r' = ren_row m r <-> renamed_row m r r').
  { intros r r'. unfold ren_row, renamed_row. rewrite <- (Ls _ _ _ _ Cl). assert (Iv : option_map (rn_value same_names) (row_var r') = row_var r') by (destruct (row_var r'); reflexivity). rewrite Iv. split.
    - intros [= H1 H2 H3 H4]. auto.
    - intros [-> [-> [-> ->]]]. reflexivity. }
  unfold ren_sheet, renamed_sheet. rewrite <- (Ls _ _ _ _ Rl). split; [intros [= H1 H2]; auto|intros [-> ->]; reflexivity].
Qed.
Lemma main_renamed m vi fi ev ev' sched p p' ext ext' : (forall x, vi (rn_value m x) = x) -> (forall x, fi (rn_fn m x) = x) -> (forall x, place_name x -> rn_value m x = x) -> env_follows m ev ev' ->
  NoDup (map fst (variables (pr_scope p))) -> NoDup (map fst ext) -> NoDup (map fst (variables (pr_scope p'))) -> NoDup (map fst ext') ->
  renamed_program m p p' -> renamed_definitions m (rn_value m) ext ext' ->
  rmap (ren_sheet same_names) (fun e => e) (omap pr_sheet (main_eval ev' sched p' ext')) = rmap (ren_sheet m) (ren_error m) (omap pr_sheet (main_eval ev sched p ext)).
Proof.
  intros V1 F1 Pl Fo U1 U2 U3 U4 [Hv [Hf Hs]] He.
  set (p2 := {| pr_scope := pr_scope p'; pr_sheet := ren_sheet m (pr_sheet p); pr_required := pr_required p' |}).
  pose proof (main_rename m vi fi V1 F1 Pl ev ev' sched p p2 ext ext' Fo U1 U2 U3 U4 Hv Hf He eq_refl) as M. rewrite <- M.
  assert (Fs : env_follows same_names ev' ev') by (split; [reflexivity|]; intro a; split; intros k l; cbn [same_names rn_value rn_fn]; rewrite !map_id; reflexivity).
  pose proof (main_rename same_names (fun x => x) (fun x => x) (fun _ => eq_refl) (fun _ => eq_refl) (fun _ _ => eq_refl) ev' ev' sched p' p2 ext' ext' Fs U3 U4 U3 U4
    (definitions_same _) (definitions_same _) (definitions_same _)) as I. cbn [pr_sheet p2] in I. rewrite I by (symmetry; apply sheets_renamed; exact Hs).
  destruct (omap pr_sheet (main_eval ev' sched p' ext')); cbn [rmap]; try reflexivity. rewrite error_same. reflexivity.
Qed.
