(** * PropTarget: what is written to the targets (C34-C36, C59-C63). *)
From Verif Require Import Base BaseProofs Csvp Ast Options CellParser PropCell Sheet Targets PropLoader.

(** ** C34: merging *)
Theorem C34_merge : forall V overwrite (ex : list (existing V)) new,
  length (merge_rows overwrite ex new) = Nat.max (length ex) (length new)
  /\ forall i, i < Nat.max (length ex) (length new) ->
     nth_error (merge_rows overwrite ex new) i
     = Some (match nth_error ex i, nth_error new i with
             | Some (EValue v), Some c => if overwrite then MNew c else MExisting v
             | Some (EValue v), None => MExisting v
             | _, Some c => MNew c
             | _, None => MEmpty
             end).
Proof.
  intros V ow ex new. unfold merge_rows. split; [rewrite map_length, seq_length; reflexivity|]. intros i Hi.
  rewrite (map_nth_error _ i (seq 0 (Nat.max (length ex) (length new))) (d := i)).
  2: { rewrite nth_error_nth' with (d := 0) by (rewrite seq_length; exact Hi). rewrite seq_nth by exact Hi. reflexivity. }
  f_equal. destruct (nth_error ex i) as [x|] eqn:X.
  - rewrite (nth_error_nth _ _ EEmpty X). destruct x, (nth_error new i); reflexivity.
  - rewrite nth_overflow by (apply nth_error_None; exact X). destruct (nth_error new i); reflexivity.
Qed.
Print Assumptions C34_merge.
Lemma merge_rows_nth V ow (ex : list (existing V)) new i : nth_error (merge_rows ow ex new) i =
  if i <? Nat.max (length ex) (length new) then Some (merge_cell ow (nth i ex EEmpty) (nth_error new i)) else None.
Proof.
  destruct (C34_merge V ow ex new) as [L N]. destruct (Nat.ltb_spec i (Nat.max (length ex) (length new))) as [H|H].
  - rewrite N by exact H. f_equal. destruct (nth_error ex i) as [x|] eqn:X.
    + rewrite (nth_error_nth _ _ EEmpty X). destruct x, (nth_error new i); reflexivity.
    + rewrite nth_overflow by (apply nth_error_None; exact X). destruct (nth_error new i); reflexivity.
  - apply nth_error_None. lia.
Qed.

(** *** the CSV target, cell by cell *)
Definition at_ (rows : list (list str)) (i j : nat) : option str := match nth_error rows i with Some r => nth_error r j | None => None end.
Definition cell_at (s : spreadsheet) (i j : nat) : option cell := match nth_error (sheet_rows s) i with Some r => nth_error (row_cells r) j | None => None end.
Lemma nth_error_repeat {A} (x : A) n i : nth_error (repeat x n) i = if i <? n then Some x else None.
Proof. revert i. induction n as [|n IH]; intro i; destruct i; cbn; auto. rewrite IH. reflexivity. Qed.
Lemma nth_error_firstn {A} n (l : list A) i : nth_error (firstn n l) i = if i <? n then nth_error l i else None.
Proof. revert l i. induction n as [|n IH]; intros l i; destruct l as [|a l], i as [|i]; try reflexivity.
  - cbn [firstn nth_error]. destruct (S i <? S n); reflexivity.
  - cbn [firstn nth_error]. rewrite IH. reflexivity.
Qed.
Lemma resize_length {A} n (x : A) l : length (resize n x l) = n.
Proof. unfold resize. rewrite app_length, firstn_length, repeat_length. lia. Qed.
Lemma resize_nth {A} n (x : A) l i : nth_error (resize n x l) i = if i <? n then Some (nth i l x) else None.
Proof.
  unfold resize. destruct (Nat.ltb_spec i n) as [H|H]; [|apply nth_error_None; rewrite app_length, firstn_length, repeat_length; lia].
  destruct (Nat.ltb_spec i (length l)) as [K|K].
  - rewrite nth_error_app1 by (rewrite firstn_length; lia). rewrite nth_error_firstn. destruct (Nat.ltb_spec i n); [|lia]. apply nth_error_nth'. exact K.
  - rewrite nth_error_app2 by (rewrite firstn_length; lia). rewrite firstn_length, nth_error_repeat. rewrite nth_overflow by exact K.
    destruct (Nat.ltb_spec (i - Nat.min n (length l)) (n - length l)); [reflexivity|lia].
Qed.
Lemma hd_nth {A} (d : A) l : hd d l = nth 0 l d.
Proof. destruct l; reflexivity. Qed.
Lemma csv_rows_nth ow w : forall rows ex i, nth_error (csv_rows ow w ex rows) i
  = match nth_error rows i with Some r => Some (resize w [] (map csv_field (merge_rows ow (nth i ex []) (row_cells r)))) | None => None end.
Proof.
  induction rows as [|r rows IH]; intros ex i; cbn [csv_rows]; destruct i as [|i]; cbn [nth_error]; auto.
  - rewrite hd_nth. reflexivity.
  - rewrite IH. destruct ex; cbn [tl nth]; [destruct i; reflexivity|reflexivity].
Qed.
Lemma csv_rows_length ow w : forall rows ex, length (csv_rows ow w ex rows) = length rows.
Proof. induction rows as [|r rows IH]; intro ex; cbn [csv_rows length]; auto. Qed.
(** the text of an existing cell, empty where there is none *)
Definition old_at (records : list (list str)) (i j : nat) : str := match at_ records i j with Some v => v | None => [] end.
Lemma csv_existing_nth records i j : nth j (nth i (csv_existing records) []) EEmpty = match old_at records i j with [] => EEmpty | v => EValue v end.
Proof.
  unfold csv_existing, old_at, at_. set (f := fun s : str => match s with [] => EEmpty | _ => EValue s end).
  destruct (nth_error records i) as [r|] eqn:R.
  - rewrite (nth_error_nth (map (map f) records) i [] (x := map f r)) by (apply map_nth_error; exact R). destruct (nth_error r j) as [v|] eqn:V.
    + rewrite (nth_error_nth (map f r) j EEmpty (x := f v)) by (apply map_nth_error; exact V). destruct v; reflexivity.
    + rewrite nth_overflow by (rewrite map_length; apply nth_error_None; exact V). reflexivity.
  - rewrite (nth_overflow (map (map f) records)) by (rewrite map_length; apply nth_error_None; exact R). destruct j; reflexivity.
Qed.
Lemma widest_ge s i r : nth_error (sheet_rows s) i = Some r -> length (row_cells r) <= widest_row s.
Proof.
  unfold widest_row. intro H. assert (X : forall rows m i r, nth_error rows i = Some r -> length (row_cells r) <= fold_left (fun m r => Nat.max m (length (row_cells r))) rows m /\ m <= fold_left (fun m r => Nat.max m (length (row_cells r))) rows m).
  { assert (G : forall rows m, m <= fold_left (fun m r => Nat.max m (length (row_cells r))) rows m).
    { induction rows as [|a rows IH]; intro m; cbn [fold_left]; [lia|]. specialize (IH (Nat.max m (length (row_cells a)))). lia. }
    induction rows as [|a rows IH]; intros m k b Hb; destruct k; cbn [nth_error] in Hb; try discriminate; cbn [fold_left].
    - injection Hb as <-. split; [|etransitivity; [|apply G]; lia]. etransitivity; [|apply G]. lia.
    - destruct (IH (Nat.max m (length (row_cells a))) k b Hb). split; [assumption|lia]. }
  eapply X, H.
Qed.
(** Every cell of the written file: what stands at row i, column j of the file afterwards. *)
Theorem C34_csv_cell : forall overwrite records s i j, i < length (sheet_rows s) -> j < widest_row s ->
  at_ (csv_write overwrite records s) i j
  = Some (match cell_at s i j with
          | Some c => match old_at records i j with
                      | [] => show_cell c
                      | v => if overwrite then show_cell c else v
                      end
          | None => old_at records i j
          end).
Proof.
  intros ow records s i j Hi Hj. unfold at_ at 1, csv_write, cell_at. rewrite csv_rows_nth. destruct (nth_error (sheet_rows s) i) as [r|] eqn:R; [|apply nth_error_None in R; lia].
  rewrite resize_nth. destruct (Nat.ltb_spec j (widest_row s)); [|lia]. f_equal.
  set (ex := nth i (csv_existing records) []).
  assert (Q : nth j (map csv_field (merge_rows ow ex (row_cells r))) [] = csv_field (merge_cell ow (nth j ex EEmpty) (nth_error (row_cells r) j))).
  { change (@nil N) with (csv_field (MEmpty (V := str))) at 1. rewrite map_nth. f_equal. pose proof (merge_rows_nth _ ow ex (row_cells r) j) as M.
    destruct (Nat.ltb_spec j (Nat.max (length ex) (length (row_cells r)))) as [L|L].
    - apply nth_error_nth. exact M.
    - apply nth_error_None in M. rewrite nth_overflow by exact M. rewrite nth_overflow by lia. rewrite (proj2 (nth_error_None _ _)) by lia. reflexivity. }
  rewrite Q. unfold ex. rewrite csv_existing_nth. destruct (nth_error (row_cells r) j) as [c|], (old_at records i j) eqn:Ol; cbn [merge_cell csv_field]; try reflexivity.
  destruct ow; reflexivity.
Qed.
Print Assumptions C34_csv_cell.
Definition ex_sheet (s : string) : spreadsheet :=
  match load_source ex_co (lit s) with Ok p => pr_sheet p | _ => {| sheet_rows := []; fills_expanded := false |} end.
Definition ex_new : spreadsheet := ex_sheet ("a,b,c" ++ nl ++ "d").
Definition ex_old : list (list str) := [[lit "1"; []; lit "3"]; [[]; lit "5"; lit "6"]].
Example C34_nonvacuous : csv_write false ex_old ex_new = [[lit "1"; lit "b"; lit "3"]; [lit "d"; lit "5"; lit "6"]]
  /\ csv_write true ex_old ex_new = [[lit "a"; lit "b"; lit "c"]; [lit "d"; lit "5"; lit "6"]] /\ length (sheet_rows ex_new) = 2 /\ widest_row ex_new = 3.
Proof. vm_compute. auto. Qed.

(** ** C35 *)
(** One record for each row of the sheet, all of the same width. *)
Theorem C35_rectangular : forall overwrite records s,
  length (csv_write overwrite records s) = length (sheet_rows s)
  /\ forall r, In r (csv_write overwrite records s) -> length r = widest_row s.
Proof.
  intros ow records s. unfold csv_write. split; [apply csv_rows_length|]. intros r H. apply In_nth_error in H as [i H]. rewrite csv_rows_nth in H.
  destruct (nth_error (sheet_rows s) i); [|discriminate]. injection H as <-. apply resize_length.
Qed.
Print Assumptions C35_rectangular.
(** Existing cells are kept when they lie in the rectangle of the sheet and the sheet has no cell there. Missing: cells
    right of it and below it, which are lost (next). *)
Theorem C35_existing_kept_partial : forall overwrite records s i j v, i < length (sheet_rows s) -> j < widest_row s ->
  at_ records i j = Some v -> cell_at s i j = None -> at_ (csv_write overwrite records s) i j = Some v.
Proof. intros ow records s i j v Hi Hj Ha Hc. rewrite C34_csv_cell by assumption. unfold old_at. rewrite Hc, Ha. reflexivity. Qed.
Print Assumptions C35_existing_kept_partial.
Example C35_nonvacuous : at_ ex_old 1 2 = Some (lit "6") /\ cell_at ex_new 1 2 = None /\ at_ (csv_write true ex_old ex_new) 1 2 = Some (lit "6").
Proof. vm_compute. auto. Qed.
(** C35 refuted, for every sheet and every existing file: nothing outside the rectangle of the sheet survives, not even in
    safe mode. *)
Theorem C35_existing_lost_refuted : forall overwrite records s i j,
  length (sheet_rows s) <= i \/ widest_row s <= j -> at_ (csv_write overwrite records s) i j = None.
Proof.
  intros ow records s i j H. unfold at_. destruct (nth_error (csv_write ow records s) i) as [r|] eqn:R; [|reflexivity].
  destruct (C35_rectangular ow records s) as [L W]. apply nth_error_None. rewrite (W r) by (eapply nth_error_In; eauto). destruct H as [H|H]; [|exact H].
  assert (i < length (csv_write ow records s)) by (apply nth_error_Some; congruence). lia.
Qed.
Print Assumptions C35_existing_lost_refuted.
Example C35_lost_example : csv_write false [[lit "1"; lit "2"]; [lit "3"]] (ex_sheet "a") = [[lit "1"]].
Proof. vm_compute. reflexivity. Qed.

(** ** C36: Google Sheets *)
Lemma chunks_one {A} (l : list A) n : l <> [] -> length l <= n -> chunks (length l) n l = [l].
Proof.
  intros Hne Hl. destruct l as [|x l]; [contradiction|]. cbn [length chunks]. rewrite firstn_all2 by exact Hl. rewrite skipn_all2 by exact Hl. destruct (length l); reflexivity.
Qed.
Lemma google_rows_nth V ow : forall rows (ex : list (list (existing V))) i, nth_error (google_rows ow ex rows) i
  = match nth_error rows i with Some r => Some (map gcell_of (merge_rows ow (nth i ex []) (row_cells r))) | None => None end.
Proof.
  induction rows as [|r rows IH]; intros ex i; cbn [google_rows]; destruct i as [|i]; cbn [nth_error]; auto.
  - rewrite hd_nth. reflexivity.
  - rewrite IH. destruct ex; cbn [tl nth]; [destruct i; reflexivity|reflexivity].
Qed.
Lemma google_rows_length V ow : forall rows (ex : list (list (existing V))), length (google_rows ow ex rows) = length rows.
Proof. induction rows as [|r rows IH]; intro ex; cbn [google_rows length]; auto. Qed.
(** what belongs at row r, column c of the sheet: the merged cell *)
Definition wanted {V} (overwrite : bool) (ex : list (list (existing V))) (rows : list row) (r c : nat) : option (gcell V) :=
  match nth_error rows r with
  | Some row => option_map gcell_of (nth_error (merge_rows overwrite (nth r ex []) (row_cells row)) c)
  | None => None
  end.
(** Up to 1000 rows and the same offset both ways (for example none): every row and cell arrives at its own place, and the
    rest of the sheet does not change. Missing: more rows, and different offsets (next two). *)
Theorem C36_places_partial : forall V overwrite o (ex : list (list (existing V))) s g,
  length (sheet_rows s) <= 1000 -> (o < 2 ^ 31)%N ->
  exists qs, google_requests overwrite (o, o) ex (sheet_rows s) = Ok qs
  /\ forall r c, apply_requests g qs r c
     = if ((o <=? r) && (o <=? c))%N
       then match wanted overwrite ex (sheet_rows s) (N.to_nat (r - o)) (N.to_nat (c - o)) with Some x => x | None => g r c end
       else g r c.
Proof.
  intros V ow o ex s g Hl Ho. unfold google_requests. rewrite (google_rows_length V ow (sheet_rows s) ex) . destruct (sheet_rows s) as [|r0 rows] eqn:Rs.
  - exists []. split; [reflexivity|]. intros r c. cbn [apply_requests fold_left]. unfold wanted. destruct (N.to_nat (r - o)); cbn [nth_error]; destruct (_ && _); reflexivity.
  - rewrite <- Rs in *. set (all := google_rows ow ex (sheet_rows s)). assert (La : length all = length (sheet_rows s)) by apply google_rows_length.
    rewrite <- La. rewrite chunks_one; [|unfold all; rewrite Rs; discriminate|lia]. cbn [fst snd]. destruct (N.ltb_spec o (2 ^ 31)); [|lia]. cbn [andb map].
    eexists. split; [reflexivity|]. intros r c. cbn [apply_requests fold_left]. unfold apply_request. cbn [at_row at_column data]. destruct (_ && _)%bool; [|reflexivity].
    unfold all, wanted. rewrite google_rows_nth. destruct (nth_error (sheet_rows s) (N.to_nat (r - o))) as [row|]; [|reflexivity]. rewrite nth_error_map. destruct (nth_error _ (N.to_nat (c - o))); reflexivity.
Qed.
Print Assumptions C36_places_partial.
Example C36_nonvacuous : length (sheet_rows ex_new) = 2 /\ wanted true ([] : list (list (existing unit))) (sheet_rows ex_new) 0 1 <> None /\ wanted true [[EEmpty; EEmpty; EEmpty; EValue tt]] (sheet_rows ex_new) 0 3 = Some (GExisting tt).
Proof. vm_compute. split; [reflexivity|]. split; [discriminate|reflexivity]. Qed.
(** C36 refuted (1): an offset of x columns and y rows moves the sheet x rows down and y columns to the right. *)
Theorem C36_offset_refuted : forall V overwrite x y (ex : list (list (existing V))) c0,
  (x < 2 ^ 31)%N -> (y < 2 ^ 31)%N -> x <> y -> ex = [] ->
  exists qs, google_requests overwrite (x, y) ex [{| row_cells := [c0]; row_options := default_options; row_fill := None; row_var := None |}] = Ok qs
  /\ forall g, apply_requests g qs x y = GNew c0 /\ apply_requests g qs y x = g y x.
Proof.
  intros V ow x y ex c0 Hx Hy N ->. eexists. split.
  - unfold google_requests. cbn [google_rows length chunks firstn skipn fst snd hd tl]. destruct (N.ltb_spec x (2 ^ 31)); [|lia]. destruct (N.ltb_spec y (2 ^ 31)); [|lia]. reflexivity.
  - intro g. unfold apply_requests. cbn [map fold_left]. unfold apply_request. cbn [at_row at_column data]. rewrite !N.leb_refl, !N.sub_diag. cbn. split; [reflexivity|].
    destruct (N.leb_spec x y), (N.leb_spec y x); cbn [andb]; try reflexivity. lia.
Qed.
Print Assumptions C36_offset_refuted.
(** (2): in a sheet of more than 1000 rows, row 1000 is written over row 0 and nothing is written to row 1000. *)
Definition ex_many : list row := flat_map (fun n => match load_source ex_co (dec (N.of_nat n)) with Ok p => sheet_rows (pr_sheet p) | _ => [] end) (seq 0 1001).
Theorem C36_many_rows_refuted : length ex_many = 1001 /\ exists qs, google_requests true (0, 0)%N ([] : list (list (existing unit))) ex_many = Ok qs
  /\ (exists c, apply_requests (fun _ _ => GDefault) qs 0%N 0%N = GNew c /\ show_cell c = lit "1000")
  /\ apply_requests (fun _ _ => GDefault) qs 1000%N 0%N = GDefault.
Proof. vm_compute. split; [reflexivity|]. eexists. split; [reflexivity|]. split; [eexists; split; reflexivity|reflexivity]. Qed.
Print Assumptions C36_many_rows_refuted.
(** C34 refuted for Google Sheets: with an offset, the cells to keep are looked up without it: safe mode overwrites the value [v] of row 1, column 1. *)
Theorem C34_google_offset_refuted : forall V (u v : V) c0, exists qs,
  google_requests false (1, 1)%N (google_existing [[]; [u; v]]) [{| row_cells := [c0]; row_options := default_options; row_fill := None; row_var := None |}] = Ok qs
  /\ forall g, apply_requests g qs 1%N 1%N = GNew c0.
Proof. intros V u v c0. eexists. split; [reflexivity|]. intro g. reflexivity. Qed.
Print Assumptions C34_google_offset_refuted.
(** C34 refuted for Google Sheets: the API returns the blank cells before the last value of a row; in safe mode nothing is ever written to them. *)
Theorem C34_google_blank_refuted : forall V (blank v : V) c0, exists qs,
  google_requests false (0, 0)%N (google_existing [[blank; v]]) [{| row_cells := [c0]; row_options := default_options; row_fill := None; row_var := None |}] = Ok qs
  /\ forall g, apply_requests g qs 0%N 0%N = GExisting blank.
Proof. intros. eexists. split; [reflexivity|]. intro g. reflexivity. Qed.
Print Assumptions C34_google_blank_refuted.

(** *** the Excel target *)
Lemma address_eqb_spec a b : reflect (a = b) (address_eqb a b).
Proof. destruct a as [ax ay], b as [bx by0]. unfold address_eqb. cbn [addr_x addr_y]. destruct (Nat.eqb_spec ax bx), (Nat.eqb_spec ay by0); cbn; constructor; congruence. Qed.
(** the cell after writing [c] to a cell that was [old] *)
Definition excel_written {V} (old : option (xcell V)) (c : cell) : xcell V :=
  {| x_before := match old with Some x => x_before x | None => None end;
     x_set := match excel_value c with EnNothing => match old with Some x => x_set x | None => EnNothing end | v => v end;
     x_style := Some c |}.
Lemma excel_cell_cells V ow p c (w : worksheet V) todo q : ws_cells (fst (excel_cell ow p c (w, todo))) q
  = if address_eqb q p then match ws_cells w p with
                            | Some x => if ow then Some (excel_written (Some x) c) else Some x
                            | None => Some (excel_written None c)
                            end
    else ws_cells w q.
Proof.
  unfold excel_cell, excel_existing. destruct (ws_cells w p) as [x|] eqn:W; cbn [merge_cell].
  - destruct ow; cbn [fst ws_cells]; destruct (address_eqb_spec q p) as [->|]; try reflexivity; try (rewrite W; reflexivity).
  - cbn [fst ws_cells]. destruct (address_eqb_spec q p) as [->|]; reflexivity.
Qed.
Lemma excel_row_cells V ow y : forall cs x (acc : worksheet V * list (address * data_validation)) q,
  ws_cells (fst (excel_row ow y x cs acc)) q =
  match (if (addr_y q =? y) && (x <=? addr_x q) then nth_error cs (addr_x q - x) else None) with
  | Some c => match ws_cells (fst acc) q with
              | Some old => if ow then Some (excel_written (Some old) c) else Some old
              | None => Some (excel_written None c)
              end
  | None => ws_cells (fst acc) q
  end.
Proof.
  induction cs as [|c cs IH]; intros x acc q; cbn [excel_row].
  - destruct (_ && _); [|reflexivity]. destruct (addr_x q - x); reflexivity.
  - rewrite IH. destruct acc as [w todo]. rewrite excel_cell_cells. cbn [fst]. destruct (address_eqb_spec q {| addr_x := x; addr_y := y |}) as [->|N]; cbn [addr_x addr_y].
    + rewrite Nat.eqb_refl, Nat.leb_refl, Nat.sub_diag. destruct (Nat.leb_spec (S x) x); [lia|]. reflexivity.
    + destruct (Nat.eqb_spec (addr_y q) y) as [Ey|]; cbn [andb]; [|reflexivity]. destruct (Nat.leb_spec x (addr_x q)) as [Hx|Hx]; destruct (Nat.leb_spec (S x) (addr_x q)) as [Hx'|Hx']; try lia; [| |reflexivity].
      * replace (addr_x q - x) with (S (addr_x q - S x)) by lia. reflexivity.
      * exfalso. apply N. destruct q as [qx qy]. cbn in *. f_equal; lia.
Qed.
Lemma excel_rows_cells V ow : forall rows y (acc : worksheet V * list (address * data_validation)) q,
  ws_cells (fst (excel_rows ow y rows acc)) q =
  match (if y <=? addr_y q then match nth_error rows (addr_y q - y) with Some r => nth_error (row_cells r) (addr_x q) | None => None end else None) with
  | Some c => match ws_cells (fst acc) q with
              | Some old => if ow then Some (excel_written (Some old) c) else Some old
              | None => Some (excel_written None c)
              end
  | None => ws_cells (fst acc) q
  end.
Proof.
  induction rows as [|r rows IH]; intros y acc q; cbn [excel_rows].
  - destruct (y <=? addr_y q); [|reflexivity]. destruct (addr_y q - y); reflexivity.
  - rewrite IH, excel_row_cells. change (0 <=? addr_x q) with true. rewrite andb_true_r, Nat.sub_0_r. destruct (Nat.eqb_spec (addr_y q) y) as [Ey|Ny].
    + destruct (Nat.leb_spec y (addr_y q)); [|lia]. destruct (Nat.leb_spec (S y) (addr_y q)); [lia|]. replace (addr_y q - y) with 0 by lia. reflexivity.
    + destruct (Nat.leb_spec y (addr_y q)), (Nat.leb_spec (S y) (addr_y q)); try lia; try reflexivity. replace (addr_y q - y) with (S (addr_y q - S y)) by lia. reflexivity.
Qed.
(** Every position of the worksheet: existing cells are kept in safe mode; the sheet's cells are written otherwise; all other
    positions are unchanged. *)
Theorem C34_excel_cell : forall V overwrite s (w : worksheet V) q,
  ws_cells (build_worksheet overwrite s w) q =
  match cell_at s (addr_y q) (addr_x q), ws_cells w q with
  | Some c, Some old => if overwrite then Some (excel_written (Some old) c) else Some old
  | Some c, None => Some (excel_written None c)
  | None, old => old
  end.
Proof.
  intros V ow s w q. unfold build_worksheet, cell_at. pose proof (excel_rows_cells V ow (sheet_rows s) 0 (w, []) q) as H. cbn [Nat.leb] in H. rewrite Nat.sub_0_r in H. cbn [fst] in H.
  destruct (excel_rows ow 0 (sheet_rows s) (w, [])) as [w' todo]. cbn [fst] in H.
  assert (K : ws_cells (match todo with [] => w' | _ => {| ws_cells := ws_cells w'; ws_comments := ws_comments w'; ws_validations := todo |} end) q = ws_cells w' q) by (destruct todo; reflexivity).
  rewrite K, H. destruct (match nth_error (sheet_rows s) (addr_y q) with Some r => nth_error (row_cells r) (addr_x q) | None => None end); destruct (ws_cells w q); reflexivity.
Qed.
Print Assumptions C34_excel_cell.
(** A written cell has the new value, unless the new cell is empty. *)
Theorem C34_excel_value_partial : forall V (old : option (xcell V)) c, excel_value c <> EnNothing -> x_set (excel_written old c) = excel_value c.
Proof. intros V old c H. unfold excel_written. cbn. destruct (excel_value c); congruence. Qed.
(** C34 refuted for Excel: an empty cell of the program does not replace the value that is there, even when overwriting. *)
Theorem C34_excel_empty_refuted : forall V (x : xcell V) c, cell_ast c = None -> parsed_value c = [] -> x_set (excel_written (Some x) c) = x_set x.
Proof. intros V x c A P. unfold excel_written, excel_value. rewrite A, P. reflexivity. Qed.
Print Assumptions C34_excel_empty_refuted.
Example C34_excel_empty_example : exists c, cell_at (ex_sheet "a,,c") 0 1 = Some c /\ cell_ast c = None /\ parsed_value c = [].
Proof. eexists. vm_compute. auto. Qed.
