(** * EditProofs: evaluation of edited sheets. *)
From Verif Require Import Base BaseProofs Csvp Ast AstParser Eval EvalSpec EvalProofs EvalRounds EvalAgree Options Sheet SheetSpec SheetProofs SheetProofs2 SheetProofs3 PropSheet PropVariables PropModules
  SameSpec SameProofs EditSpec.

(** ** The frame of a sheet: what its references depend on *)
Definition cell_names (r : row) : list (option str) := map cell_var (row_cells r).
Definition frame (r : row) : option fill * option str * list (option str) := (row_fill r, row_var r, cell_names r).
Lemma frame_alike r r' : alike_row r r' -> frame r = frame r'.
Proof.
  intros [_ [F [V C]]]. unfold frame, cell_names. rewrite F, V. f_equal. induction C as [|c c' cs cs' [_ [_ [_ H]]] _ IH]; [reflexivity|]. cbn [map]. rewrite H, IH. reflexivity.
Qed.
Lemma frame_but x r r' : same_row_but x r r' -> frame r = frame r'.
Proof.
  intros [_ [F [V [L C]]]]. unfold frame, cell_names. rewrite F, V. f_equal. apply PropCompile.nth_error_ext. intro j. rewrite !nth_error_map.
  destruct (nth_error (row_cells r) j) as [c|] eqn:E1, (nth_error (row_cells r') j) as [c'|] eqn:E2; cbn [option_map]; [apply (f_equal Some); exact (proj1 (C j c c' E1 E2))| | |reflexivity].
  - apply nth_error_None in E2. assert (nth_error (row_cells r) j <> None) by congruence. apply nth_error_Some in H. lia.
  - apply nth_error_None in E1. assert (nth_error (row_cells r') j <> None) by congruence. apply nth_error_Some in H. lia.
Qed.
Lemma frame_variables : forall rs rs' y vars, map frame rs = map frame rs' -> row_variables y rs vars = row_variables y rs' vars.
Proof.
  induction rs as [|r rs IH]; intros [|r' rs'] y vars H; try discriminate H; [reflexivity|]. cbn [map] in H. injection H as H1 H2 H3 H4. cbn [row_variables].
  rewrite (IH rs' (S y)) by exact H4. f_equal. rewrite H2. unfold row_reference. rewrite H1.
  generalize (match row_var r' with Some x => assoc_insert x match row_fill r' with Some f => NVar x (VRowRelative y f) | None => NVar x (VRow y) end vars | None => vars end).
  generalize 0. unfold cell_names in H3. revert H3. generalize (row_cells r'). induction (row_cells r) as [|c cs IHc]; intros [|c' cs'] H i v; try discriminate H; [reflexivity|].
  cbn [map] in H. injection H as Hc Hcs. cbn [cell_variables]. unfold cell_reference. rewrite Hc, H1. apply IHc. exact Hcs.
Qed.
Lemma map_frame_fill rs rs' : map frame rs = map frame rs' -> map row_fill rs = map row_fill rs'.
Proof. intro H. apply (f_equal (map (fun f => fst (fst f)))) in H. rewrite !map_map in H. exact H. Qed.
Lemma fill_copies left : forall rs rs', map row_fill rs = map row_fill rs' -> map (copies left) rs = map (copies left) rs'.
Proof. induction rs as [|r rs IH]; intros [|r' rs'] H; try discriminate H; [reflexivity|]. cbn [map] in *. injection H as H1 H2. rewrite (IH rs' H2). unfold copies. rewrite H1. reflexivity. Qed.
Lemma fill_total left rs rs' : map row_fill rs = map row_fill rs' -> total left rs = total left rs'.
Proof. intro H. unfold total. rewrite (fill_copies left rs rs' H). reflexivity. Qed.
Lemma fill_offset left rs rs' i : map row_fill rs = map row_fill rs' -> offset left rs i = offset left rs' i.
Proof. intro H. unfold offset. apply fill_total. rewrite <- !firstn_map, H. reflexivity. Qed.
Lemma fill_room rs rs' : map row_fill rs = map row_fill rs' -> room rs = room rs'.
Proof. intro H. unfold room. rewrite (fill_total 0 rs rs' H). reflexivity. Qed.
Lemma fill_infinite : forall rs rs' saw, map row_fill rs = map row_fill rs' -> multiple_infinite saw rs = multiple_infinite saw rs'.
Proof.
  induction rs as [|r rs IH]; intros [|r' rs'] saw H; try discriminate H; [reflexivity|]. cbn [map] in H. injection H as H1 H2. cbn [multiple_infinite].
  assert (X : is_infinite r = is_infinite r') by (unfold is_infinite; rewrite H1; reflexivity). rewrite X, !(IH rs') by exact H2. reflexivity.
Qed.
Lemma fills_both s s' t : map row_fill (sheet_rows s) = map row_fill (sheet_rows s') -> fills_expanded s = false -> fills_expanded s' = false -> eval_fills s = Some t -> exists t', eval_fills s' = Some t'.
Proof.
  intros M F F' H. unfold eval_fills in *. rewrite F in H. rewrite F'. unfold has_multiple_infinite_expands in *. rewrite <- (fill_infinite _ _ _ M).
  destruct (multiple_infinite false (sheet_rows s)); [discriminate H|]. eauto.
Qed.

(** ** Cells that do not evaluate *)
Lemma all_ok_collect {E A} : forall (xs : list (outcome E A)), (forall x, In x xs -> is_ok x = true) -> exists l, xs = map Ok l.
Proof.
  induction xs as [|x xs IH]; intro H; [exists []; reflexivity|]. pose proof (H x (or_introl eq_refl)) as Hx. destruct x as [a| | |]; try discriminate Hx.
  destruct IH as [l ->]; [intros z Hz; apply H; right; exact Hz|]. exists (a :: l). reflexivity.
Qed.
Lemma all_ok_par {E A} sched (xs : list (outcome E A)) : (forall x, In x xs -> is_ok x = true) -> exists l, par_collect sched xs = Ok l.
Proof.
  intro H. destruct (all_ok_collect xs H) as [l L]. exists l. apply par_collect_ok. exact L.
Qed.
Lemma eval_cells_all ev sc y : forall cs x, (forall i c n, nth_error cs i = Some c -> cell_ast c = Some n ->
    is_ok (ast_eval (ev_fuel ev) (ev_order ev {| addr_x := x + i; addr_y := y |}) sc (Some {| addr_x := x + i; addr_y := y |}) n) = true) ->
  is_ok (eval_cells ev sc y x cs) = true.
Proof.
  induction cs as [|c cs IH]; intros x H; [reflexivity|]. cbn [eval_cells]. cbv zeta.
  assert (T : is_ok (eval_cells ev sc y (S x) cs) = true) by (apply IH; intros i d n Hi Hn; replace (S x + i) with (x + S i) by lia; apply (H (S i) d n); assumption).
  destruct (cell_ast c) as [n|] eqn:En.
  - specialize (H 0 c n eq_refl En). rewrite Nat.add_0_r in H. destruct (ast_eval _ _ _ _ n); try discriminate H. cbn [bind]. destruct (eval_cells ev sc y (S x) cs); try discriminate T. reflexivity.
  - cbn [bind]. destruct (eval_cells ev sc y (S x) cs); try discriminate T. reflexivity.
Qed.
(** a sheet all of whose formulas evaluate is evaluated *)
Lemma sheet_evaluates ev sched p ext p1 : module_eval_fills p = Ok p1 ->
  (forall y r x c n, nth_error (sheet_rows (pr_sheet p1)) y = Some r -> nth_error (row_cells r) x = Some c -> cell_ast c = Some n ->
     is_ok (ast_eval (ev_fuel ev) (ev_order ev {| addr_x := x; addr_y := y |}) (sheet_scope p1 ext) (Some {| addr_x := x; addr_y := y |}) n) = true) ->
  exists q, main_eval ev sched p ext = Ok q.
Proof.
  intros M H. unfold main_eval. rewrite M. cbn [bind]. unfold eval_spreadsheet.
  destruct (all_ok_par sched (mapi (row_eval ev (sheet_scope p1 ext)) 0 (sheet_rows (pr_sheet p1)))) as [l ->]; [|eexists; reflexivity].
  intros x Hx. apply In_nth_error in Hx as [y Hy]. rewrite mapi_nth in Hy. destruct (nth_error (sheet_rows (pr_sheet p1)) y) as [r|] eqn:Er; [|discriminate Hy]. cbn [option_map Nat.add] in Hy. injection Hy as <-.
  unfold row_eval. assert (T : is_ok (eval_cells ev (sheet_scope p1 ext) y 0 (row_cells r)) = true) by (apply eval_cells_all; intros i c n Hc Hn; cbn [Nat.add]; eapply H; eassumption).
  destruct (eval_cells _ _ _ _ _); try discriminate T. reflexivity.
Qed.

(** ** One cell *)
Section Cell.
  Variables (y x : nat) (s s' : spreadsheet).
  Hypothesis Ed : edited y x s s'.
  Hypothesis Fe : fills_expanded s = false.
  Lemma edited_frame : map frame (sheet_rows s) = map frame (sheet_rows s').
  Proof.
    destruct Ed as [_ [L H]]. apply PropCompile.nth_error_ext. intro i. rewrite !nth_error_map.
    destruct (nth_error (sheet_rows s) i) as [r|] eqn:E1, (nth_error (sheet_rows s') i) as [r'|] eqn:E2; cbn [option_map]; [| | |reflexivity].
    - apply (f_equal Some). specialize (H i r r' E1 E2). destruct (i =? y); [eapply frame_but; exact H|apply frame_alike; exact H].
    - apply nth_error_None in E2. assert (K : nth_error (sheet_rows s) i <> None) by congruence. apply nth_error_Some in K. lia.
    - apply nth_error_None in E1. assert (K : nth_error (sheet_rows s') i <> None) by congruence. apply nth_error_Some in K. lia.
  Qed.
  Lemma edited_fills t : eval_fills s = Some t -> exists t', eval_fills s' = Some t' /\ changed s y x t t' /\ map frame (sheet_rows t) = map frame (sheet_rows t').
  Proof.
    intro H. assert (Fe' : fills_expanded s' = false) by (rewrite <- (proj1 Ed); exact Fe). pose proof (map_frame_fill _ _ edited_frame) as Mf.
    destruct (fills_both s s' t Mf Fe Fe' H) as [t' H']. exists t'. split; [exact H'|].
    destruct (C23_expansion s t Fe H) as [_ [Lt [A B]]]. destruct (C23_expansion s' t' Fe' H') as [_ [Lt' [A' B']]].
    assert (Lr : length (sheet_rows t) = length (sheet_rows t')) by (rewrite Lt, Lt', <- (fill_room _ _ Mf); apply fill_total; exact Mf).
    rewrite <- (fill_room _ _ Mf) in A'. set (left := room (sheet_rows s)) in *.
    assert (P : forall p c c', nth_error (sheet_rows t) p = Some c -> nth_error (sheet_rows t') p = Some c' ->
      exists i r r' k, nth_error (sheet_rows s) i = Some r /\ nth_error (sheet_rows s') i = Some r' /\ k < copies left r /\ p = offset left (sheet_rows s) i + k
        /\ is_copy (offset left (sheet_rows s) i) r c /\ is_copy (offset left (sheet_rows s) i) r' c').
    { intros p c c' Hc Hc'. destruct (B p c Hc) as [i [r [k [Hr [Hk Hp]]]]]. destruct (nth_error (sheet_rows s') i) as [r'|] eqn:Hr'.
      - exists i, r, r', k. split; [exact Hr|]. split; [exact Hr'|]. split; [exact Hk|]. split; [exact Hp|].
        destruct (A i r k Hr Hk) as [d [Hd Id]]. rewrite <- Hp, Hc in Hd. injection Hd as <-. split; [exact Id|].
        assert (Hk' : k < copies left r') by (replace (copies left r') with (copies left r); [exact Hk|]; pose proof (fill_copies left _ _ Mf) as Mc; apply (f_equal (fun l => nth_error l i)) in Mc; rewrite !nth_error_map, Hr, Hr' in Mc; injection Mc as Mc; exact Mc).
        destruct (A' i r' k Hr' Hk') as [d [Hd Id']]. rewrite <- (fill_offset left _ _ i Mf), <- Hp, Hc' in Hd. injection Hd as <-. rewrite <- (fill_offset left _ _ i Mf) in Id'. exact Id'.
      - apply nth_error_None in Hr'. assert (K : nth_error (sheet_rows s) i <> None) by congruence. apply nth_error_Some in K. destruct Ed as [_ [L _]]. lia. }
    assert (Rel : forall i r r' c c', nth_error (sheet_rows s) i = Some r -> nth_error (sheet_rows s') i = Some r' ->
      is_copy (offset left (sheet_rows s) i) r c -> is_copy (offset left (sheet_rows s) i) r' c' -> if i =? y then same_row_but x c c' else alike_row c c').
    { intros i r r' c c' Hr Hr' [C1 [C2 [C3 C4]]] [D1 [D2 [D3 D4]]]. pose proof (proj2 (proj2 Ed) i r r' Hr Hr') as R. destruct (i =? y).
      - destruct R as [R1 [R2 [R3 [R4 R5]]]]. unfold same_row_but. rewrite C1, C2, C3, C4, D1, D2, D3, D4, R1, R2, R3. auto.
      - destruct R as [R1 [R2 [R3 R4]]]. unfold alike_row. rewrite C1, C2, C3, C4, D1, D2, D3, D4, R1, R2, R3. auto. }
    split.
    - split; [exact Lr|]. intros p c c' Hc Hc'. destruct (P p c c' Hc Hc') as [i [r [r' [k [Hr [Hr' [Hk [Hp [Id Id']]]]]]]]]. pose proof (Rel i r r' c c' Hr Hr' Id Id') as R.
      split.
      + intros [ry [Hy [L1 L2]]]. fold left in L1, L2. destruct (Nat.eqb_spec i y) as [->|Ny]; [exact R|]. exfalso.
        assert (Bl : forall i j ri rj, i < j -> nth_error (sheet_rows s) i = Some ri -> nth_error (sheet_rows s) j = Some rj -> offset left (sheet_rows s) i + copies left ri <= offset left (sheet_rows s) j).
        { clear. clearbody left. intros i j ri rj Lt Hi Hj. unfold offset. revert i j Lt Hi Hj. induction (sheet_rows s) as [|r rs IH]; intros i j Lt Hi Hj; [destruct i; discriminate Hi|].
          destruct j as [|j]; [lia|]. destruct i as [|i].
          - injection Hi as <-. cbn [firstn]. rewrite total_cons. cbn. lia.
          - assert (Lt' : i < j) by lia. specialize (IH i j Lt' Hi Hj). cbn [firstn]. rewrite !total_cons. lia. }
        destruct (Nat.lt_ge_cases i y) as [Lt0|Ge0].
        * pose proof (Bl i y r ry Lt0 Hr Hy). lia.
        * pose proof (Bl y i ry r ltac:(lia) Hy Hr). lia.
      + intro N. destruct (Nat.eqb_spec i y) as [->|Ny]; [|exact R]. destruct N. exists r. fold left. split; [exact Hr|]. lia.
    - apply PropCompile.nth_error_ext. intro i. rewrite !nth_error_map. destruct (nth_error (sheet_rows t) i) as [c|] eqn:E1, (nth_error (sheet_rows t') i) as [c'|] eqn:E2; cbn [option_map]; [| | |reflexivity].
      + apply (f_equal Some). destruct (P i c c' E1 E2) as [j [r [r' [k [Hr [Hr' [Hk [Hp [Id Id']]]]]]]]]. pose proof (Rel j r r' c c' Hr Hr' Id Id') as R. destruct (j =? y); [eapply frame_but; exact R|apply frame_alike; exact R].
      + apply nth_error_None in E2. assert (K : nth_error (sheet_rows t) i <> None) by congruence. apply nth_error_Some in K. lia.
      + apply nth_error_None in E1. assert (K : nth_error (sheet_rows t') i <> None) by congruence. apply nth_error_Some in K. lia.
  Qed.
End Cell.
Lemma is_copy_dec s y i : is_copy_of s y i \/ ~ is_copy_of s y i.
Proof.
  unfold is_copy_of. destruct (nth_error (sheet_rows s) y) as [r|] eqn:E; [|right; intros [r [H _]]; congruence].
  set (a := offset (room (sheet_rows s)) (sheet_rows s) y). set (b := copies (room (sheet_rows s)) r).
  destruct (le_lt_dec a i) as [L|L]; [|right; intros [r' [_ [H1 _]]]; lia]. destruct (le_lt_dec (a + b) i) as [L2|L2]; [|left; exists r; fold b; auto].
  right. intros [r' [H [_ H2]]]. injection H as <-. fold b in H2. lia.
Qed.
Lemma nth_both {A B} (l : list A) (l' : list B) i a : length l = length l' -> nth_error l i = Some a -> exists b, nth_error l' i = Some b.
Proof.
  intros L H. destruct (nth_error l' i) as [b|] eqn:E; [eauto|]. apply nth_error_None in E. assert (K : nth_error l i <> None) by congruence. apply nth_error_Some in K. lia.
Qed.
(** cells outside the edited one are alike *)
Lemma changed_cells s y x t t' i j r r' : changed s y x t t' -> nth_error (sheet_rows t) i = Some r -> nth_error (sheet_rows t') i = Some r' ->
  length (row_cells r) = length (row_cells r')
  /\ forall c c', nth_error (row_cells r) j = Some c -> nth_error (row_cells r') j = Some c' -> cell_var c = cell_var c' /\ (~ (is_copy_of s y i /\ j = x) -> alike_cell c c').
Proof.
  intros [_ H] Hr Hr'. destruct (H i r r' Hr Hr') as [H1 H2]. destruct (is_copy_dec s y i) as [C|C].
  - destruct (H1 C) as [_ [_ [_ [L K]]]]. split; [exact L|]. intros c c' Hc Hc'. destruct (K j c c' Hc Hc') as [K1 K2]. split; [exact K1|]. intro N. apply K2. intros ->. apply N. auto.
  - destruct (H2 C) as [_ [_ [_ K]]]. split; [eapply Forall2_len; exact K|]. intros c c' Hc Hc'. destruct (Forall2_nth_l _ _ _ _ _ K Hc) as [d [Hd A]]. rewrite Hc' in Hd. injection Hd as <-.
    split; [apply A|auto].
Qed.

Section EditEval.
  Variables (ev : eval_env) (sched : list nat) (y x : nat) (s s' : spreadsheet) (sc : scope) (req req' : list module_path) (ext : list (str * node)).
  Hypothesis Ed : edited y x s s'.
  Hypothesis Fe : fills_expanded s = false.
  Let p := {| pr_scope := sc; pr_sheet := s; pr_required := req |}.
  Let p' := {| pr_scope := sc; pr_sheet := s'; pr_required := req' |}.
  Variable q : program.
  Hypothesis Ok_ : main_eval ev sched p ext = Ok q.

  Lemma edit_expanded : exists t t', eval_fills s = Some t /\ eval_fills s' = Some t' /\ changed s y x t t' /\ map frame (sheet_rows t) = map frame (sheet_rows t')
    /\ sheet_scope {| pr_scope := sc; pr_sheet := t'; pr_required := req' |} ext = sheet_scope {| pr_scope := sc; pr_sheet := t; pr_required := req |} ext.
  Proof.
    unfold main_eval, module_eval_fills in Ok_. cbn [pr_sheet p] in Ok_. destruct (eval_fills s) as [t|] eqn:Ef; [|discriminate Ok_].
    destruct (edited_fills y x s s' Ed Fe t Ef) as [t' [Ef' [Ch Fr]]]. exists t, t'. repeat (split; [first [reflexivity|assumption]|]).
    unfold sheet_scope, sheet_variables. cbn [pr_scope pr_sheet]. rewrite (frame_variables _ _ 0 [] Fr). reflexivity.
  Qed.
  (** the other cells evaluate as before *)
  Lemma edit_other t t' : eval_fills s = Some t -> eval_fills s' = Some t' -> changed s y x t t' ->
    forall i r' j c' n, nth_error (sheet_rows t') i = Some r' -> nth_error (row_cells r') j = Some c' -> cell_ast c' = Some n -> ~ (is_copy_of s y i /\ j = x) ->
    exists m, ast_eval (ev_fuel ev) (ev_order ev {| addr_x := j; addr_y := i |}) (sheet_scope {| pr_scope := sc; pr_sheet := t; pr_required := req |} ext) (Some {| addr_x := j; addr_y := i |}) n = Ok m.
  Proof.
    intros Ef Ef' Ch i r' j c' n Hr' Hc' Hn N. destruct (C52_in_place _ _ _ _ _ Ok_) as [p1 [M [_ H]]].
    unfold module_eval_fills in M. cbn [pr_sheet p] in M. rewrite Ef in M. injection M as <-. cbn [pr_sheet pr_scope pr_required] in H.
    destruct (nth_both _ (sheet_rows t) i r' (eq_sym (proj1 Ch)) Hr') as [r Hr]. destruct (changed_cells s y x t t' i j r r' Ch Hr Hr') as [L K].
    destruct (nth_both _ (row_cells r) j c' (eq_sym L) Hc') as [c Hc]. destruct (K c c' Hc Hc') as [_ A]. specialize (A N).
    destruct (H i r Hr) as [ro [_ [_ [_ [_ [_ Hx]]]]]]. destruct (Hx j c Hc) as [co [_ [_ [_ [_ [_ Hm]]]]]]. rewrite (proj1 A), Hn in Hm. destruct Hm as [m [Hm _]]. exists m. exact Hm.
  Qed.
  Lemma edit_ok q' : main_eval ev sched p' ext = Ok q' -> changed s y x (pr_sheet q) (pr_sheet q').
  Proof.
    intro H'. destruct edit_expanded as [t [t' [Ef [Ef' [Ch [Fr Sc]]]]]].
    destruct (C52_in_place _ _ _ _ _ Ok_) as [p1 [M [L1 H1]]]. destruct (C52_in_place _ _ _ _ _ H') as [p2 [M' [L2 H2]]].
    unfold module_eval_fills in M, M'. cbn [pr_sheet p p'] in M, M'. rewrite Ef in M. rewrite Ef' in M'. injection M as <-. injection M' as <-. cbn [pr_sheet pr_scope pr_required p p'] in *.
    split; [rewrite L1, L2; apply Ch|]. intros i o o' Ho Ho'.
    destruct (nth_both _ (sheet_rows t) i o L1 Ho) as [r Hr]. destruct (nth_both _ (sheet_rows t') i o' L2 Ho') as [r' Hr'].
    destruct (H1 i r Hr) as [o1 [X [A1 [A2 [A3 [A4 A5]]]]]]. rewrite Ho in X. injection X as <-. destruct (H2 i r' Hr') as [o2 [X [B1 [B2 [B3 [B4 B5]]]]]]. rewrite Ho' in X. injection X as <-.
    assert (Cl : forall j c c', nth_error (row_cells o) j = Some c -> nth_error (row_cells o') j = Some c' -> cell_var c = cell_var c' /\ (~ (is_copy_of s y i /\ j = x) -> alike_cell c c')).
    { intros j c c' Hc Hc'. destruct (nth_both _ (row_cells r) j c A4 Hc) as [d Hd]. destruct (nth_both _ (row_cells r') j c' B4 Hc') as [d' Hd'].
      destruct (A5 j d Hd) as [c1 [X [_ [D1 [D2 [D3 D4]]]]]]. rewrite Hc in X. injection X as <-. destruct (B5 j d' Hd') as [c2 [X [_ [E1 [E2 [E3 E4]]]]]]. rewrite Hc' in X. injection X as <-.
      destruct (changed_cells s y x t t' i j r r' Ch Hr Hr') as [_ K]. destruct (K d d' Hd Hd') as [K1 K2]. split; [congruence|]. intro N. destruct (K2 N) as [Ka [Kb [Kc Kd]]].
      split; [|split; [congruence|split; congruence]]. rewrite Ka in D4. destruct (cell_ast d') as [n|]; [|congruence]. destruct D4 as [m [D4 ->]]. destruct E4 as [m' [E4 ->]].
      rewrite Sc in E4. rewrite D4 in E4. injection E4 as <-. reflexivity. }
    destruct (proj2 Ch i r r' Hr Hr') as [C1 C2]. split.
    - intro C. destruct (C1 C) as [R1 [R2 [R3 [R4 _]]]]. split; [congruence|]. split; [congruence|]. split; [congruence|]. split; [congruence|]. intros j c c' Hc Hc'. destruct (Cl j c c' Hc Hc') as [K1 K2]. split; [exact K1|]. intro N. apply K2. intros [_ X]. contradiction.
    - intro C. destruct (C2 C) as [R1 [R2 [R3 R4]]]. split; [congruence|]. split; [congruence|]. split; [congruence|]. apply Forall2_len in R4. apply Forall2_nth; [congruence|]. intros j c c' Hc Hc'. apply (Cl j c c' Hc Hc'). intros [X _]. contradiction.
  Qed.
  Lemma edit_err e : main_eval ev sched p' ext = Err e -> exists a k, e = CellEval a k /\ addr_x a = x /\ is_copy_of s y (addr_y a).
  Proof.
    intro H'. destruct edit_expanded as [t [t' [Ef [Ef' [Ch [Fr Sc]]]]]]. destruct (C52_failure _ _ _ _ _ H') as [[_ N]|[p2 [a [r' [c' [n [k [M' [-> [Hr' [Hc' [Hn Hk]]]]]]]]]]]].
    - cbn [pr_sheet p'] in N. congruence.
    - unfold module_eval_fills in M'. cbn [pr_sheet p'] in M'. rewrite Ef' in M'. injection M' as <-. cbn [pr_sheet pr_scope pr_required p'] in *. exists a, k. split; [reflexivity|].
      destruct (is_copy_dec s y (addr_y a)) as [C|C]; [destruct (Nat.eq_dec (addr_x a) x) as [X|X]; [auto|]|]; exfalso;
        (destruct (edit_other t t' Ef Ef' Ch (addr_y a) r' (addr_x a) c' n Hr' Hc' Hn) as [m Hm]; [intros [? ?]; contradiction|]);
        rewrite Sc in Hk; destruct a as [ax ay]; cbn [addr_x addr_y] in *; rewrite Hm in Hk; discriminate Hk.
  Qed.
  Lemma edit_text : no_formula_at s' y x -> exists q', main_eval ev sched p' ext = Ok q'.
  Proof.
    intro No. destruct edit_expanded as [t [t' [Ef [Ef' [Ch [Fr Sc]]]]]].
    assert (Fe' : fills_expanded s' = false) by (rewrite <- (proj1 Ed); exact Fe). pose proof (map_frame_fill _ _ (edited_frame y x s s' Ed Fe)) as Mf.
    assert (M : module_eval_fills p' = Ok {| pr_scope := sc; pr_sheet := t'; pr_required := req' |}) by (unfold module_eval_fills; cbn [pr_sheet p']; rewrite Ef'; reflexivity).
    apply (sheet_evaluates ev sched p' ext _ M). cbn [pr_sheet]. intros i r' j c' n Hr' Hc' Hn. rewrite Sc.
    destruct (edit_other t t' Ef Ef' Ch i r' j c' n Hr' Hc' Hn) as [m ->]; [|reflexivity]. intros [[ry [Hy [L1 L2]]] ->].
    destruct (nth_both _ (sheet_rows s') y ry (proj1 (proj2 Ed)) Hy) as [ry' Hy'].
    assert (Cp : copies (room (sheet_rows s)) ry = copies (room (sheet_rows s)) ry') by (pose proof (fill_copies (room (sheet_rows s)) _ _ Mf) as Mc; apply (f_equal (fun l => nth_error l y)) in Mc; rewrite !nth_error_map, Hy, Hy' in Mc; injection Mc as Mc; exact Mc).
    destruct (C23_expansion s' t' Fe' Ef') as [_ [_ [A _]]]. rewrite <- (fill_room _ _ Mf) in A. specialize (A y ry' (i - offset (room (sheet_rows s)) (sheet_rows s) y) Hy').
    rewrite <- Cp, <- (fill_offset _ _ _ y Mf) in A. destruct A as [c [Hc [Cc _]]]; [lia|]. replace (offset _ _ y + _) with i in Hc by lia. rewrite Hr' in Hc. injection Hc as <-.
    rewrite Cc in Hc'. rewrite (No ry' c' Hy' Hc') in Hn. discriminate Hn.
  Qed.
End EditEval.
