(** * PropFormat: values, formats, notes and validation rules in the targets (C59-C63). *)
From Coq Require Import QArith ZifyBool.
From Verif Require Import Base BaseProofs Csvp Ast AstProofs Options CellParser CellSpec PropCell Sheet Targets TargetSpec PropLoader PropTarget.
Open Scope nat_scope.

(** ** C59: values *)
(** Google Sheets and Excel are given the same value; a formula has its equals sign in one of them. *)
Theorem C59_same_value : forall c,
  google_value c = match excel_value c with EnFormula f => EnFormula (c_eq :: f) | v => v end.
Proof.
  intro c. unfold google_value, excel_value. destruct (cell_ast c) as [a|]; [|destruct (parsed_value c); reflexivity].
  destruct a as [| |p g v| | | |p g v| | |]; try reflexivity; destruct p, g; reflexivity.
Qed.
Print Assumptions C59_same_value.
(** A formula is in every target the text that the CSV file has. *)
Theorem C59_formula : forall c f, google_value c = EnFormula f -> show_cell c = f.
Proof.
  intros c f. unfold google_value, show_cell. destruct (cell_ast c) as [a|]; [|destruct (parsed_value c); discriminate].
  destruct a as [| |p g v| | | |p g v| | |]; try (destruct p, g); congruence.
Qed.
Print Assumptions C59_formula.
(** A cell that is not a formula: the same text everywhere. *)
Theorem C59_text : forall c, cell_ast c = None -> parsed_value c <> [] ->
  google_value c = EnText (show_cell c) /\ excel_value c = EnText (show_cell c).
Proof. intros c A P. unfold google_value, excel_value, show_cell. rewrite A. destruct (parsed_value c); [contradiction|]. auto. Qed.
Print Assumptions C59_text.
(** Integers up to 2^53 arrive exactly; missing: larger ones (next). *)
Theorem C59_integer_partial : forall c v, cell_ast c = Some (NInt false None v) -> (Z.abs v <= 2 ^ 53)%Z -> google_value c = EnNumber v /\ excel_value c = EnNumber v.
Proof.
  intros c v A H. unfold google_value, excel_value. rewrite A. unfold f64_of_i64. destruct (Z.leb_spec (Z.abs v) (2 ^ 53)); [auto|lia].
Qed.
Print Assumptions C59_integer_partial.
Definition ex_cell (s : string) : cell := match cell_at (ex_sheet s) 0 0 with Some c => c | None => {| cell_ast := None; cell_field := {| f_address := {| addr_x := 0; addr_y := 0 |}; f_value := []; f_positions := [] |}; parsed_value := []; cell_options := default_options; cell_var := None |} end.
Example C59_nonvacuous : google_value (ex_cell "=SUM(A1)") = EnFormula (lit "=SUM(A1)") /\ excel_value (ex_cell "=SUM(A1)") = EnFormula (lit "SUM(A1)")
  /\ google_value (ex_cell "abc") = EnText (lit "abc") /\ google_value (ex_cell "=42") = EnNumber 42.
Proof. vm_compute. auto. Qed.
(** C59 refuted (1): 2^53 + 1 arrives as 2^53. *)
Theorem C59_large_integer_refuted : cell_ast (ex_cell "=9007199254740993") = Some (NInt false None 9007199254740993)
  /\ google_value (ex_cell "=9007199254740993") = EnNumber 9007199254740992 /\ excel_value (ex_cell "=9007199254740993") = EnNumber 9007199254740992.
Proof. vm_compute. auto. Qed.
Print Assumptions C59_large_integer_refuted.
(** (2): a number written without an equals sign is a number when the CSV file is opened, but a text in the other targets. *)
Theorem C59_plain_number_refuted : show_cell (ex_cell "42") = lit "42" /\ google_value (ex_cell "42") = EnText (lit "42") /\ excel_value (ex_cell "42") = EnText (lit "42")
  /\ google_value (ex_cell "=42") = EnNumber 42.
Proof. vm_compute. auto. Qed.
Print Assumptions C59_plain_number_refuted.

(** ** C60: formats *)
Definition mem {A} (eqb : A -> A -> bool) (x : A) (l : list A) : bool := existsb (eqb x) l.
(** the font options of a cell, and whether a font that was sent has them *)
Definition font_options (o : options) : bool * bool * bool * bool * option str * option nat :=
  (existsb (text_format_eqb TFBold) (text_formats o), existsb (text_format_eqb TFItalic) (text_formats o),
   existsb (text_format_eqb TFStrikethrough) (text_formats o), existsb (text_format_eqb TFUnderline) (text_formats o), font_family o, font_size o).
Definition plain_font : bool * bool * bool * bool * option str * option nat := (false, false, false, false, None, None).
Definition sent_font (f : option font) : bool * bool * bool * bool * option str * option nat :=
  match f with Some f => (f_bold f, f_italic f, f_strike f, f_underline f, f_family f, f_size f) | None => plain_font end.
Theorem C60_fonts : forall o, sent_font (fm_font (google_format o)) = font_options o /\ sent_font (fm_font (excel_format o)) = font_options o.
Proof.
  intro o. unfold google_format, excel_format, sent_font, font_options, plain_font, font_of, has_format. cbn [fm_font]. split.
  - destruct (font_family o), (font_size o), (font_color o); cbn [andb fm_font f_bold f_italic f_strike f_underline f_family f_size]; try reflexivity.
    destruct (existsb (text_format_eqb TFBold) (text_formats o)), (existsb (text_format_eqb TFItalic) (text_formats o)),
      (existsb (text_format_eqb TFStrikethrough) (text_formats o)), (existsb (text_format_eqb TFUnderline) (text_formats o)); reflexivity.
  - destruct (font_family o), (font_size o), (font_color o), (text_formats o); reflexivity.
Qed.
Print Assumptions C60_fonts.
(** Colours on Google Sheets: what is shown is what was asked for. *)
Theorem C60_google_colors : forall o,
  option_map shown_color (fm_background (google_format o)) = option_map Some (color o)
  /\ option_map shown_color (match fm_font (google_format o) with Some f => f_color f | None => None end) = option_map Some (font_color o).
Proof.
  intro o. unfold google_format, font_of. cbn [fm_background fm_font]. split.
  - destruct (color o) as [[r g b]|]; reflexivity.
  - destruct (font_family o), (font_size o), (font_color o) as [[r g b]|]; cbn [f_color option_map andb]; try reflexivity.
    destruct (negb _); reflexivity.
Qed.
Print Assumptions C60_google_colors.
(** C60 refuted for Excel, for every colour: what is shown is green, blue and full intensity where red, green and blue were asked for; so
    only white is shown as itself. *)
Lemma hex_digit_char n : (n < 16)%N -> hex_digit (hex_char n) = Some n.
Proof.
  intro H. unfold hex_digit, hex_char, is_ascii_digit. destruct (N.ltb_spec n 10).
  - destruct (_ && _)%bool eqn:A; [f_equal; lia|lia].
  - destruct ((48 <=? n + 55) && (n + 55 <=? 57))%N%bool eqn:A; [lia|]. destruct ((65 <=? n + 55) && (n + 55 <=? 70))%N%bool eqn:B; [f_equal; lia|lia].
Qed.
Lemma two_hex_hex2 n : (n < 256)%N -> two_hex (hex_char (n / 16)) (hex_char (n mod 16)) = Some n.
Proof.
  intro H. unfold two_hex. rewrite !hex_digit_char; [f_equal; symmetry; apply N.div_mod'|apply N.mod_lt; lia|apply N.div_lt_upper_bound; lia].
Qed.
Theorem C60_excel_colors_refuted : forall c, byte_color c ->
  shown_color (excel_color c) = Some {| red := green c; green := blue c; blue := 255 |}.
Proof.
  intros c (R & G & B). unfold excel_color, rgb_to_rgba, hex2. cbn [app]. change (lit "FF") with [70; 70]%N. cbn [shown_color].
  rewrite !two_hex_hex2 by assumption. reflexivity.
Qed.
Print Assumptions C60_excel_colors_refuted.
Theorem C60_excel_only_white_partial : forall c, byte_color c -> (shown_color (excel_color c) = Some c <-> c = {| red := 255; green := 255; blue := 255 |}).
Proof.
  intros c H. rewrite C60_excel_colors_refuted by exact H. destruct c as [r g b]. cbn [red green blue]. split; [intro E; injection E as -> -> <-; reflexivity|intro E; injection E as -> -> ->; reflexivity].
Qed.
Print Assumptions C60_excel_only_white_partial.
Example C60_color_example : color (cell_options (ex_cell "[[color=FF0011]]a")) = Some {| red := 255; green := 0; blue := 17 |}
  /\ shown_color (excel_color {| red := 255; green := 0; blue := 17 |}) = Some {| red := 0; green := 17; blue := 255 |}.
Proof. vm_compute. auto. Qed.
(** Borders on Excel: a side has one exactly if that side or all were asked for, in the style asked for. Missing: the colour (next). *)
Theorem C60_excel_borders_partial : forall o s b, In (s, b) [(BTop, fm_top (excel_format o)); (BBottom, fm_bottom (excel_format o)); (BLeft, fm_left (excel_format o)); (BRight, fm_right (excel_format o))] ->
  option_map b_style b = if existsb (border_side_eqb BAll) (borders o) || existsb (border_side_eqb s) (borders o) then Some (excel_border_style (border_style_ o)) else None.
Proof.
  intros o s b H. unfold excel_format in H. cbn [fm_top fm_bottom fm_left fm_right In] in H. unfold excel_border, has_side in H.
  assert (K : b = if existsb (border_side_eqb BAll) (borders o) || existsb (border_side_eqb s) (borders o) then Some {| b_color := None; b_style := excel_border_style (border_style_ o) |} else None) by (repeat (destruct H as [H|H]; [injection H as <- <-; reflexivity|]); contradiction).
  rewrite K. clear H K. destruct (_ || _); reflexivity.
Qed.
Print Assumptions C60_excel_borders_partial.
(** C60 refuted: on Excel no border has a colour. *)
Theorem C60_excel_border_color_refuted : forall o b, In (Some b) [fm_top (excel_format o); fm_bottom (excel_format o); fm_left (excel_format o); fm_right (excel_format o)] -> b_color b = None.
Proof.
  intros o b H. unfold excel_format, excel_border in H. cbn [fm_top fm_bottom fm_left fm_right In] in H.
  repeat (destruct H as [H|H]); try contradiction; destruct (_ || _) in H; try discriminate; injection H as <-; reflexivity.
Qed.
Print Assumptions C60_excel_border_color_refuted.
(** Borders on Google Sheets: a side that was asked for by name. Missing: all (next). *)
Theorem C60_google_borders_partial : forall o s b, In (s, b) [(BTop, fm_top (google_format o)); (BBottom, fm_bottom (google_format o)); (BLeft, fm_left (google_format o)); (BRight, fm_right (google_format o))] ->
  ~ In BAll (borders o) ->
  b = if existsb (border_side_eqb BAll) (borders o) || existsb (border_side_eqb s) (borders o)
      then Some {| b_color := option_map google_color (border_color o); b_style := google_border_style (border_style_ o) |} else None.
Proof.
  intros o s b H N. assert (A : existsb (border_side_eqb BAll) (borders o) = false).
  { apply Bool.not_true_iff_false. intro E. apply existsb_exists in E as (x & I & E). apply N. destruct x; try discriminate. exact I. }
  rewrite A. cbn [orb]. unfold google_format in H. cbn [fm_top fm_bottom fm_left fm_right In] in H. unfold google_border, has_side in H.
  repeat (destruct H as [H|H]; [injection H as <- <-; reflexivity|]); contradiction.
Qed.
Print Assumptions C60_google_borders_partial.
(** C60 refuted: border=all gives no border at all on Google Sheets. *)
Theorem C60_google_all_refuted : forall o, (forall s, In s (borders o) -> s = BAll) ->
  fm_top (google_format o) = None /\ fm_bottom (google_format o) = None /\ fm_left (google_format o) = None /\ fm_right (google_format o) = None.
Proof.
  intros o H. assert (K : forall s, s <> BAll -> google_border o s = None).
  { intros s N. unfold google_border, has_side. destruct (existsb _ _) eqn:E; [|reflexivity]. apply existsb_exists in E as (x & I & E). rewrite (H x I) in E. destruct s; try discriminate. contradiction. }
  unfold google_format. cbn [fm_top fm_bottom fm_left fm_right]. rewrite !K by discriminate. auto.
Qed.
Print Assumptions C60_google_all_refuted.
Example C60_all_example : borders (cell_options (ex_cell "[[border=all]]a")) = [BAll] /\ borders (cell_options (ex_cell "[[b=t b=l]]a")) = [BTop; BLeft].
Proof. vm_compute. auto. Qed.
(** The words sent to Google Sheets mean what was asked for: vertical alignment, number format and border style, and the other two
    unless the text is centred or overflows. *)
Theorem C60_google_words_partial : forall o,
  means api_valign (fm_valign (google_format o)) = Some (vertical_align_ o)
  /\ means api_number (fm_number (google_format o)) = Some (number_format_ o)
  /\ means api_border (google_border_style (border_style_ o)) = Some (border_style_ o)
  /\ (horizontal_align_ o <> HCenter -> means api_halign (fm_halign (google_format o)) = Some (horizontal_align_ o))
  /\ (text_wrap_ o <> WOverflow -> means api_wrap (fm_wrap (google_format o)) = Some (text_wrap_ o)).
Proof.
  intro o. unfold google_format. cbn [fm_valign fm_number fm_halign fm_wrap].
  split; [destruct (vertical_align_ o); vm_compute; auto 10|]. split; [destruct (number_format_ o); vm_compute; auto 10|]. split; [destruct (border_style_ o); vm_compute; auto 10|].
  split; [destruct (horizontal_align_ o)|destruct (text_wrap_ o)]; intro N; try congruence; vm_compute; auto 10.
Qed.
Print Assumptions C60_google_words_partial.
(** C60 refuted: a centred cell (which is what every cell is that asks for nothing) and an overflowing one are sent with words that the API does not know. *)
Theorem C60_google_center_refuted : horizontal_align_ default_options = HCenter
  /\ (forall o, horizontal_align_ o = HCenter -> means api_halign (fm_halign (google_format o)) = None)
  /\ (forall o, text_wrap_ o = WOverflow -> means api_wrap (fm_wrap (google_format o)) = None).
Proof.
  split; [reflexivity|]. split; intros o H; unfold google_format; cbn [fm_halign fm_wrap]; rewrite H; vm_compute; reflexivity.
Qed.
Print Assumptions C60_google_center_refuted.
(** On Excel they all mean what was asked for, but for wrapping, where the choice is between wrapping and not. *)
Theorem C60_excel_words : forall o,
  means ooxml_halign (fm_halign (excel_format o)) = Some (horizontal_align_ o)
  /\ means ooxml_valign (fm_valign (excel_format o)) = Some (vertical_align_ o)
  /\ means umya_number (fm_number (excel_format o)) = Some (number_format_ o)
  /\ means ooxml_border (excel_border_style (border_style_ o)) = Some (border_style_ o)
  /\ (fm_wrap (excel_format o) = lit "true" <-> text_wrap_ o = WWrap).
Proof.
  intro o. unfold excel_format. cbn [fm_halign fm_valign fm_number fm_wrap].
  split; [destruct (horizontal_align_ o); reflexivity|]. split; [destruct (vertical_align_ o); reflexivity|]. split; [destruct (number_format_ o); reflexivity|]. split; [destruct (border_style_ o); reflexivity|].
  destruct (text_wrap_ o); vm_compute; split; congruence.
Qed.
Print Assumptions C60_excel_words.
(** C60 refuted: lock changes nothing that is sent, and overflow and clip are the same on Excel. *)
Theorem C60_lock_refuted : forall o, google_format (set_lock o) = google_format o /\ excel_format (set_lock o) = excel_format o.
Proof. intro o. split; reflexivity. Qed.
Print Assumptions C60_lock_refuted.
Theorem C60_overflow_refuted : forall o, excel_format (set_text_wrap WOverflow o) = excel_format (set_text_wrap WClip o).
Proof. reflexivity. Qed.
Print Assumptions C60_overflow_refuted.

(** ** C61: notes and rules on Excel *)
(** the cells that are written: those of the sheet where nothing was, or all if overwriting *)
Definition is_written {V} (overwrite : bool) (s : spreadsheet) (w : worksheet V) (p : address) (c : cell) : Prop :=
  cell_at s (addr_y p) (addr_x p) = Some c /\ (overwrite = true \/ ws_cells w p = None).
Definition row_written {V} (overwrite : bool) (y x : nat) (cs : list cell) (w : worksheet V) (p : address) (c : cell) : Prop :=
  addr_y p = y /\ x <= addr_x p /\ nth_error cs (addr_x p - x) = Some c /\ (overwrite = true \/ ws_cells w p = None).
Lemma excel_cell_notes V ow p c (w : worksheet V) todo :
  (forall q n, In (q, n) (ws_comments (fst (excel_cell ow p c (w, todo)))) <-> In (q, n) (ws_comments w) \/ (q = (addr_x p, addr_y p) /\ note (cell_options c) = Some n /\ (ow = true \/ ws_cells w p = None)))
  /\ (forall q v, In (q, v) (snd (excel_cell ow p c (w, todo))) <-> In (q, v) todo \/ (q = p /\ validation (cell_options c) = Some v /\ (ow = true \/ ws_cells w p = None)))
  /\ ws_validations (fst (excel_cell ow p c (w, todo))) = ws_validations w.
Proof.
  unfold excel_cell, excel_existing. destruct (ws_cells w p) as [x|] eqn:W; cbn [merge_cell]; [destruct ow|].
  2: { cbn [fst snd]. split; [|split]; [| |reflexivity]; intros q v; split; auto; intros [H|(_ & _ & [H|H])]; auto; discriminate. }
  all: cbn [fst snd ws_comments ws_validations]; split; [|split]; [| |reflexivity]; intros q v.
  1,3: destruct (note (cell_options c)) as [n|]; [rewrite in_app_iff; cbn [In]|];
       (split; [try (intros [H|[H|[]]]); try (intro H); auto; injection H as <- <-; auto 6
               |intros [H|(-> & H & _)]; auto; try discriminate; injection H as <-; auto]).
  1,2: destruct (validation (cell_options c)) as [n|]; [rewrite in_app_iff; cbn [In]|];
       (split; [try (intros [H|[H|[]]]); try (intro H); auto; injection H as <- <-; auto 6
               |intros [H|(-> & H & _)]; auto; try discriminate; injection H as <-; auto]).
Qed.
Lemma row_written_cons V ow y x c cs (w w1 : worksheet V) todo p d :
  w1 = fst (excel_cell ow {| addr_x := x; addr_y := y |} c (w, todo)) ->
  (row_written ow y x (c :: cs) w p d <-> (p = {| addr_x := x; addr_y := y |} /\ d = c /\ (ow = true \/ ws_cells w p = None)) \/ row_written ow y (S x) cs w1 p d).
Proof.
  intros ->. unfold row_written. rewrite excel_cell_cells. destruct p as [px py]. cbn [addr_x addr_y].
  destruct (address_eqb_spec {| addr_x := px; addr_y := py |} {| addr_x := x; addr_y := y |}) as [Q|Q].
  - injection Q as -> ->. rewrite Nat.sub_diag. cbn [nth_error]. split.
    + intros (_ & _ & H & K). left. injection H as <-. auto.
    + intros [(_ & -> & K)|(_ & H & _)]; [|lia]. auto.
  - split.
    + intros (-> & Hx & H & K). right. destruct (px - x) as [|k] eqn:D; [exfalso; apply Q; f_equal; lia|]. cbn [nth_error] in H. replace (px - S x) with k by lia. split; [reflexivity|]. split; [lia|]. auto.
    + intros [(E & _)|(-> & Hx & H & K)]; [contradiction|]. replace (px - x) with (S (px - S x)) by lia. cbn [nth_error]. split; [reflexivity|]. split; [lia|]. auto.
Qed.
Lemma excel_row_notes V ow y : forall cs x (w : worksheet V) todo,
  (forall q n, In (q, n) (ws_comments (fst (excel_row ow y x cs (w, todo)))) <-> In (q, n) (ws_comments w) \/ exists p c, q = (addr_x p, addr_y p) /\ row_written ow y x cs w p c /\ note (cell_options c) = Some n)
  /\ (forall q v, In (q, v) (snd (excel_row ow y x cs (w, todo))) <-> In (q, v) todo \/ exists c, row_written ow y x cs w q c /\ validation (cell_options c) = Some v)
  /\ ws_validations (fst (excel_row ow y x cs (w, todo))) = ws_validations w.
Proof.
  induction cs as [|c cs IH]; intros x w todo; cbn [excel_row].
  - cbn [fst snd]. assert (R : forall p d, ~ row_written ow y x [] w p d) by (intros p d (_ & _ & H & _); destruct (addr_x p - x); discriminate).
    split; [|split]; [| |reflexivity].
    + intros q n. split; auto. intros [H|(p & d & _ & H & _)]; auto. exfalso. eapply R, H.
    + intros q n. split; auto. intros [H|(d & H & _)]; auto. exfalso. eapply R, H.
  - pose proof (excel_cell_notes V ow {| addr_x := x; addr_y := y |} c w todo) as (N & T & U). pose proof (row_written_cons V ow y x c cs w (fst (excel_cell ow {| addr_x := x; addr_y := y |} c (w, todo))) todo) as RW.
    destruct (excel_cell ow {| addr_x := x; addr_y := y |} c (w, todo)) as [w1 todo1]. cbn [fst snd] in *. destruct (IH (S x) w1 todo1) as (N1 & T1 & U1). clear IH.
    split; [|split]; [| |congruence].
    + intros q n. rewrite N1, N. split.
      * intros [[H|(-> & H & K)]|(p & d & -> & H & K)]; auto.
        -- right. exists {| addr_x := x; addr_y := y |}, c. split; [reflexivity|]. split; [apply RW; auto|exact H].
        -- right. exists p, d. split; [reflexivity|]. split; [apply RW; auto|exact K].
      * intros [H|(p & d & -> & H & K)]; auto. apply RW in H; [|reflexivity]. destruct H as [(-> & -> & H)|H]; eauto 10.
    + intros q v. rewrite T1, T. split.
      * intros [[H|(-> & H & K)]|(d & H & K)]; auto; right; [exists c|exists d]; (split; [apply RW; auto|assumption]).
      * intros [H|(d & H & K)]; auto. apply RW in H; [|reflexivity]. destruct H as [(-> & -> & H)|H]; eauto 10.
Qed.
Definition rows_written {V} (overwrite : bool) (y : nat) (rows : list row) (w : worksheet V) (p : address) (c : cell) : Prop :=
  y <= addr_y p /\ (match nth_error rows (addr_y p - y) with Some r => nth_error (row_cells r) (addr_x p) | None => None end) = Some c /\ (overwrite = true \/ ws_cells w p = None).
Lemma excel_row_other V ow y cs x (acc : worksheet V * list (address * data_validation)) q : addr_y q <> y -> ws_cells (fst (excel_row ow y x cs acc)) q = ws_cells (fst acc) q.
Proof. intro H. rewrite excel_row_cells. destruct (Nat.eqb_spec (addr_y q) y); [contradiction|reflexivity]. Qed.
Lemma rows_written_cons V ow y r rows (w w1 : worksheet V) todo p d : w1 = fst (excel_row ow y 0 (row_cells r) (w, todo)) ->
  (rows_written ow y (r :: rows) w p d <-> row_written ow y 0 (row_cells r) w p d \/ rows_written ow (S y) rows w1 p d).
Proof.
  intros ->. unfold rows_written, row_written. destruct (Nat.eq_dec (addr_y p) y) as [Q|Q].
  - rewrite Q, Nat.sub_diag, Nat.sub_0_r. cbn [nth_error]. split; [intros (_ & H & K); left; repeat split; auto; lia|].
    intros [(_ & _ & H & K)|(H & _)]; [auto|lia].
  - rewrite excel_row_other by exact Q. cbn [fst]. split.
    + intros (Hy & H & K). right. destruct (addr_y p - y) as [|k] eqn:D; [lia|]. cbn [nth_error] in H. replace (addr_y p - S y) with k by lia. split; [lia|]. auto.
    + intros [(H & _)|(Hy & H & K)]; [contradiction|]. replace (addr_y p - y) with (S (addr_y p - S y)) by lia. cbn [nth_error]. split; [lia|]. auto.
Qed.
Lemma excel_rows_notes V ow : forall rows y (w : worksheet V) todo,
  (forall q n, In (q, n) (ws_comments (fst (excel_rows ow y rows (w, todo)))) <-> In (q, n) (ws_comments w) \/ exists p c, q = (addr_x p, addr_y p) /\ rows_written ow y rows w p c /\ note (cell_options c) = Some n)
  /\ (forall q v, In (q, v) (snd (excel_rows ow y rows (w, todo))) <-> In (q, v) todo \/ exists c, rows_written ow y rows w q c /\ validation (cell_options c) = Some v)
  /\ ws_validations (fst (excel_rows ow y rows (w, todo))) = ws_validations w.
Proof.
  induction rows as [|r rows IH]; intros y w todo; cbn [excel_rows].
  - cbn [fst snd]. assert (R : forall p d, ~ rows_written ow y [] w p d) by (intros p d (_ & H & _); destruct (addr_y p - y); discriminate).
    split; [|split]; [| |reflexivity].
    + intros q n. split; auto. intros [H|(p & d & _ & H & _)]; auto. exfalso. eapply R, H.
    + intros q n. split; auto. intros [H|(d & H & _)]; auto. exfalso. eapply R, H.
  - pose proof (excel_row_notes V ow y (row_cells r) 0 w todo) as (N & T & U). pose proof (rows_written_cons V ow y r rows w (fst (excel_row ow y 0 (row_cells r) (w, todo))) todo) as RW.
    destruct (excel_row ow y 0 (row_cells r) (w, todo)) as [w1 todo1]. cbn [fst snd] in *. destruct (IH (S y) w1 todo1) as (N1 & T1 & U1). clear IH.
    split; [|split]; [| |congruence].
    + intros q n. rewrite N1, N. split.
      * intros [[H|(p & d & -> & H & K)]|(p & d & -> & H & K)]; auto; right; exists p, d; (split; [reflexivity|]; split; [apply RW; auto|exact K]).
      * intros [H|(p & d & -> & H & K)]; auto. apply RW in H; [|reflexivity]. destruct H as [H|H]; eauto 10.
    + intros q v. rewrite T1, T. split.
      * intros [[H|(d & H & K)]|(d & H & K)]; auto; right; exists d; (split; [apply RW; auto|assumption]).
      * intros [H|(d & H & K)]; auto. apply RW in H; [|reflexivity]. destruct H as [H|H]; eauto 10.
Qed.
Lemma rows_written_all V ow s (w : worksheet V) p c : rows_written ow 0 (sheet_rows s) w p c <-> is_written ow s w p c.
Proof. unfold rows_written, is_written, cell_at. rewrite Nat.sub_0_r. intuition lia. Qed.
(** The notes in the worksheet afterwards: those that were there, and for each written cell with a note one, at the column and row
    numbers that are the cell's indices. Missing: a worksheet counts columns and rows from 1 (next). *)
Theorem C61_notes_partial : forall V overwrite s (w : worksheet V) col rw n,
  In (col, rw, n) (ws_comments (build_worksheet overwrite s w)) <->
  In (col, rw, n) (ws_comments w)
  \/ exists p c, col = addr_x p /\ rw = addr_y p /\ is_written overwrite s w p c /\ note (cell_options c) = Some n.
Proof.
  intros V ow s w col rw n. destruct (excel_rows_notes V ow (sheet_rows s) 0 w []) as (N & _ & _). unfold build_worksheet.
  destruct (excel_rows ow 0 (sheet_rows s) (w, [])) as [w1 todo]. cbn [fst] in N.
  assert (K : ws_comments (match todo with [] => w1 | _ => {| ws_cells := ws_cells w1; ws_comments := ws_comments w1; ws_validations := todo |} end) = ws_comments w1) by (destruct todo; reflexivity).
  rewrite K, N. split; (intros [H|(p & c & H)]; [left; exact H|right; exists p, c]).
  - destruct H as (Q & W & M). injection Q as -> ->. rewrite rows_written_all in W. auto.
  - destruct H as (-> & -> & W & M). rewrite rows_written_all. auto.
Qed.
Print Assumptions C61_notes_partial.
(** The rules in the worksheet afterwards: one for each written cell that has one; and if there is no such cell, those that were there. *)
Theorem C61_rules_partial : forall V overwrite s (w : worksheet V) q v,
  (exists p c, is_written overwrite s w p c /\ validation (cell_options c) <> None) ->
  (In (q, v) (ws_validations (build_worksheet overwrite s w)) <-> exists c, is_written overwrite s w q c /\ validation (cell_options c) = Some v).
Proof.
  intros V ow s w q v (p & c & W & M). destruct (excel_rows_notes V ow (sheet_rows s) 0 w []) as (_ & T & _). unfold build_worksheet.
  destruct (excel_rows ow 0 (sheet_rows s) (w, [])) as [w1 todo]. cbn [snd] in T.
  destruct (validation (cell_options c)) as [v0|] eqn:E; [|contradiction]. assert (I : In (p, v0) todo) by (apply T; right; exists c; rewrite rows_written_all; auto).
  destruct todo as [|t0 todo]; [destruct I|]. cbn [ws_validations]. rewrite T. cbn [In]. split.
  - intros [[]|(d & H & K)]. exists d. rewrite rows_written_all in H. auto.
  - intros (d & H & K). right. exists d. rewrite rows_written_all. auto.
Qed.
Print Assumptions C61_rules_partial.
Theorem C61_rules_kept : forall V overwrite s (w : worksheet V),
  (forall p c, is_written overwrite s w p c -> validation (cell_options c) = None) -> ws_validations (build_worksheet overwrite s w) = ws_validations w.
Proof.
  intros V ow s w H. destruct (excel_rows_notes V ow (sheet_rows s) 0 w []) as (_ & T & U). unfold build_worksheet.
  destruct (excel_rows ow 0 (sheet_rows s) (w, [])) as [w1 todo]. cbn [fst snd] in *. destruct todo as [|[p v] todo]; [exact U|]. exfalso.
  destruct (proj1 (T p v) (or_introl eq_refl)) as [[]|(c & W & M)]. rewrite rows_written_all in W. rewrite (H p c W) in M. discriminate.
Qed.
Print Assumptions C61_rules_kept.
Definition no_worksheet : worksheet unit := {| ws_cells := fun _ => None; ws_comments := []; ws_validations := [] |}.
Definition ex_noted : spreadsheet := ex_sheet "a,[[note='hi']]b,[[validate=is_email]]c".
Example C61_nonvacuous : ws_comments (build_worksheet false ex_noted no_worksheet) = [(1, 0, lit "hi")]
  /\ ws_validations (build_worksheet false ex_noted no_worksheet) = [({| addr_x := 2; addr_y := 0 |}, DVTextIsValidEmail)].
Proof. vm_compute. auto. Qed.
(** C61 refuted (1): a worksheet's columns and rows are numbered from 1, so no note is at its cell. *)
Theorem C61_notes_refuted : forall V overwrite s (w : worksheet V) p c n, ws_comments w = [] -> is_written overwrite s w p c -> note (cell_options c) = Some n ->
  (forall p' c', is_written overwrite s w p' c' -> note (cell_options c') <> None -> p' = p) ->
  ~ In (S (addr_x p), S (addr_y p), n) (ws_comments (build_worksheet overwrite s w)).
Proof.
  intros V ow s w p c n E W M U H. apply C61_notes_partial in H as [H|(p' & c' & Hx & Hy & W' & M')]; [rewrite E in H; exact H|].
  rewrite (U p' c' W') in Hx by congruence. lia.
Qed.
Print Assumptions C61_notes_refuted.
(** (2): the rules that were there are lost as soon as the program has one, wherever they were. *)
Theorem C61_rules_lost_refuted : forall V overwrite s (w : worksheet V) q v,
  (exists p c, is_written overwrite s w p c /\ validation (cell_options c) <> None) ->
  cell_at s (addr_y q) (addr_x q) = None -> ~ In (q, v) (ws_validations (build_worksheet overwrite s w)).
Proof. intros V ow s w q v H N I. apply (C61_rules_partial V ow s w q v H) in I as (c & (W & _) & _). congruence. Qed.
Print Assumptions C61_rules_lost_refuted.

(** ** C62: what the rules mean *)
Lemma literal_inj a b : show_Z a = show_Z b -> a = b.
Proof.
  assert (M : forall p q, dec (Npos p) <> c_minus :: q).
  { intros p q H. pose proof (dec_digits (Npos p)) as D. rewrite H in D. cbn [forallb] in D. apply andb_prop in D as [D _]. vm_compute in D. discriminate. }
  destruct a as [|p|p], b as [|q|q]; cbn [show_Z]; intro H; try reflexivity; try (exfalso; revert H; first [apply M|intro H; symmetry in H; revert H; apply M]).
  - apply dec_inj in H. discriminate.
  - exfalso. vm_compute in H. discriminate.
  - apply dec_inj in H. discriminate.
  - apply dec_inj in H. injection H as ->. reflexivity.
  - exfalso. vm_compute in H. discriminate.
  - injection H as H. apply dec_inj in H. injection H as ->. reflexivity.
Qed.
Lemma literal_show a b : literal (show_Z a) b -> b = a.
Proof. intro H. inversion H as [z Q]. subst z. apply literal_inj. exact Q. Qed.
(** On Excel a rule about numbers admits exactly the numbers it says. *)
Theorem C62_excel_numbers : forall serial p v, number_rule v = true -> exists xv, excel_validation serial p v = Ok xv /\ forall x, excel_admits xv x <-> admits v x.
Proof.
  intros serial p v H. destruct v; try discriminate H; cbn [excel_validation]; eexists; (split; [reflexivity|]); intro x; cbn [admits]; split.
  all: try (intro A; inversion A as [? f g a' b' ? Ty Op F1 F2 La Lb Q|? f g a' b' ? Ty Op F1 F2 La Lb Q|? f a' ? Ty Op F1 La Q|? f a' ? Ty Op F1 La Q|? f a' ? Ty Op F1 La Q|? f a' ? Ty Op F1 La Q|? f a' ? Ty Op F1 La Q|? f a' ? Ty Op F1 La Q]; subst;
    cbn [xv_type xv_operator xv_formula1 xv_formula2] in *; try (vm_compute in Op; discriminate Op); try (injection F2 as <-);
    apply literal_show in La; try apply literal_show in Lb; subst; exact Q).
  - intro Q. eapply xa_between; cbn [xv_type xv_operator xv_formula1 xv_formula2]; try reflexivity; try apply literal_intro. exact Q.
  - intro Q. eapply xa_equal; cbn [xv_type xv_operator xv_formula1 xv_formula2]; try reflexivity; try apply literal_intro. exact Q.
  - intro Q. eapply xa_greater; cbn [xv_type xv_operator xv_formula1 xv_formula2]; try reflexivity; try apply literal_intro. exact Q.
  - intro Q. eapply xa_greater_equal; cbn [xv_type xv_operator xv_formula1 xv_formula2]; try reflexivity; try apply literal_intro. exact Q.
  - intro Q. eapply xa_less; cbn [xv_type xv_operator xv_formula1 xv_formula2]; try reflexivity; try apply literal_intro. exact Q.
  - intro Q. eapply xa_less_equal; cbn [xv_type xv_operator xv_formula1 xv_formula2]; try reflexivity; try apply literal_intro. exact Q.
  - intro Q. eapply xa_not_between; cbn [xv_type xv_operator xv_formula1 xv_formula2]; try reflexivity; try apply literal_intro. exact Q.
  - intro Q. eapply xa_not_equal; cbn [xv_type xv_operator xv_formula1 xv_formula2]; try reflexivity; try apply literal_intro. exact Q.
Qed.
Print Assumptions C62_excel_numbers.
Example C62_nonvacuous : validation (cell_options (ex_cell "[[validate=number_between(1 10)]]a")) = Some (DVNumberBetween 1 10).
Proof. vm_compute. reflexivity. Qed.
(** On Google Sheets the type that is sent is one the API knows for these rules and no others. *)
Definition api_knows (v : data_validation) : bool :=
  match v with
  | DVDateAfter _ | DVDateBefore _ | DVDateBetween _ _ | DVDateNotBetween _ _ | DVDateOnOrAfter _ | DVDateOnOrBefore _
  | DVNumberBetween _ _ | DVNumberNotBetween _ _ | DVTextContains _ => true
  | _ => false
  end.
Theorem C62_google_types_refuted : forall v, In (cd_type (google_condition v)) api_condition <-> api_knows v = true.
Proof.
  intro v. assert (X : existsb (str_eqb (cd_type (google_condition v))) api_condition = api_knows v) by (destruct v; vm_compute; reflexivity).
  rewrite <- X. rewrite existsb_exists. split.
  - intro H. eexists. split; [exact H|]. destruct (str_eqb_spec (cd_type (google_condition v)) (cd_type (google_condition v))); [reflexivity|contradiction].
  - intros (x & I & Q). destruct (str_eqb_spec (cd_type (google_condition v)) x); [subst; exact I|discriminate].
Qed.
Print Assumptions C62_google_types_refuted.
(** On Google Sheets the rule sent carries the arguments it was given, in order, under one of the
    documented names of the rule in capitals. (That this is mostly not a name of the API: above.) *)
Definition capitals (s : str) : str := map (fun c => if is_ascii_lower c then (c - 32)%N else c) s.
Theorem C62_google_conditions_partial :
  (forall n mk s, spelled text_validations n mk -> exists n', spelled text_validations n' mk
     /\ google_condition (mk s) = {| cd_type := capitals n'; cd_dates := false; cd_values := [s] |})
  /\ (forall n mk a, spelled date_validations n mk -> exists n', spelled date_validations n' mk
     /\ google_condition (mk a) = {| cd_type := capitals n'; cd_dates := true; cd_values := [a] |})
  /\ (forall n mk a b, spelled date_pair_validations n mk -> exists n', spelled date_pair_validations n' mk
     /\ google_condition (mk a b) = {| cd_type := capitals n'; cd_dates := true; cd_values := [a; b] |})
  /\ (forall n mk a, spelled number_validations n mk -> exists n', spelled number_validations n' mk
     /\ google_condition (mk a) = {| cd_type := capitals n'; cd_dates := false; cd_values := [show_Z a] |})
  /\ (forall n mk a b, spelled number_pair_validations n mk -> exists n', spelled number_pair_validations n' mk
     /\ google_condition (mk a b) = {| cd_type := capitals n'; cd_dates := false; cd_values := [show_Z a; show_Z b] |}).
Proof.
  split; [|split; [|split; [|split]]]; intros n mk; intros.
  all: match goal with H : spelled ?t _ _ |- _ => unfold spelled in H; cbn [In map text_validations date_validations date_pair_validations number_validations number_pair_validations] in H end.
  all: repeat match goal with H : _ \/ _ |- _ => destruct H as [H|H] end; try contradiction;
       match goal with H : (_, _) = (_, _) |- _ => injection H as <- <- end.
  all: match goal with |- exists n', spelled ?tb n' ?mk /\ google_condition ?g = _ =>
         let try_ s := (exists (lit s); split; [unfold spelled; cbn [In map text_validations date_validations date_pair_validations number_validations number_pair_validations]; tauto|reflexivity]) in
         first [try_ "custom"%string | try_ "text_contains"%string | try_ "text_does_not_contain"%string | try_ "text_equal_to"%string
               | try_ "date_after"%string | try_ "date_before"%string | try_ "date_equal_to"%string | try_ "date_on_or_after"%string | try_ "date_on_or_before"%string
               | try_ "date_between"%string | try_ "date_not_between"%string
               | try_ "number_equal_to"%string | try_ "number_greater_than"%string | try_ "number_greater_than_or_equal_to"%string | try_ "number_less_than"%string
               | try_ "number_less_than_or_equal_to"%string | try_ "number_not_equal_to"%string | try_ "number_between"%string | try_ "number_not_between"%string] end.
Qed.
Print Assumptions C62_google_conditions_partial.
(** The two rules about numbers that the API knows admit there exactly the numbers they say. *)
Definition api_admits (c : condition) (x : Q) : Prop :=
  exists a b, cd_dates c = false /\ cd_values c = [show_Z a; show_Z b]
    /\ ((cd_type c = lit "NUMBER_BETWEEN" /\ (inject_Z a <= x /\ x <= inject_Z b)%Q)
        \/ (cd_type c = lit "NUMBER_NOT_BETWEEN" /\ ~ (inject_Z a <= x /\ x <= inject_Z b)%Q)).
Theorem C62_google_numbers_partial : forall v, number_rule v = true -> api_knows v = true ->
  forall x, api_admits (google_condition v) x <-> admits v x.
Proof.
  intros v N K x. destruct v; try discriminate N; try discriminate K; cbn [google_condition admits]; (split; [intros (a' & b' & _ & E & H)|intro H; do 2 eexists; split; [reflexivity|]; split; [reflexivity|]; tauto]);
    cbn [cd_values] in E; injection E as E1 E2; apply literal_inj in E1, E2; subst a' b'; (destruct H as [[Ty H]|[Ty H]]; [|]; first [exact H|vm_compute in Ty; discriminate Ty]).
Qed.
Print Assumptions C62_google_numbers_partial.
(** and a date is sent where the API wants one of the words today, yesterday and so on. *)
Theorem C62_google_dates_refuted : forall v d r, In (d :: r) (cd_values (google_condition v)) -> cd_dates (google_condition v) = true -> is_ascii_digit d = true ->
  ~ In (d :: r) api_relative_date.
Proof.
  intros v d r _ _ D H. vm_compute in H. unfold is_ascii_digit in D. repeat (destruct H as [H|H]; [injection H as <- _; vm_compute in D; discriminate D|]). contradiction.
Qed.
Print Assumptions C62_google_dates_refuted.
(** what a list item says *)
Definition item_text (n : node) : str := match n with NText t => t | n => show n end.
Definition plain_item (s : str) : Prop := ~ In c_dquote s /\ ~ In c_comma s /\ hd_error s <> Some c_space.
Definition unquote (s : str) : str := filter (fun c => negb (c =? c_dquote)%N) s.
Lemma unquote_plain s : ~ In c_dquote s -> unquote s = s.
Proof.
  intro H. unfold unquote. induction s as [|c s IH]; [reflexivity|]. cbn [filter]. destruct (N.eqb_spec c c_dquote) as [->|N]; [exfalso; apply H; left; reflexivity|].
  cbn [negb]. f_equal. apply IH. intro I. apply H. right. exact I.
Qed.
Lemma unquote_item n : plain_item (item_text n) -> unquote (show n) = item_text n.
Proof.
  intros (Q & _ & _). destruct n; cbn [item_text] in *; try (apply unquote_plain; exact Q).
  cbn [show]. unfold unquote. rewrite !filter_app. cbn [filter]. change (negb (c_dquote =? c_dquote)%N) with false. cbn iota. rewrite app_nil_r. cbn [app]. apply unquote_plain. exact Q.
Qed.
Lemma cut_at_plain c s cur : ~ In c s -> cut_at c s cur = [cur ++ s].
Proof.
  revert cur. induction s as [|x s IH]; intros cur H; cbn [cut_at]; [rewrite app_nil_r; reflexivity|].
  destruct (N.eqb_spec x c) as [->|N]; [exfalso; apply H; left; reflexivity|]. rewrite IH by (intro I; apply H; right; exact I). rewrite <- app_assoc. reflexivity.
Qed.
Lemma cut_at_app c s t cur : ~ In c s -> cut_at c (s ++ c :: t) cur = (cur ++ s) :: cut_at c t [].
Proof.
  revert cur. induction s as [|x s IH]; intros cur H; cbn [app cut_at].
  - rewrite N.eqb_refl, app_nil_r. reflexivity.
  - destruct (N.eqb_spec x c) as [->|N]; [exfalso; apply H; left; reflexivity|]. rewrite IH by (intro I; apply H; right; exact I). rewrite <- app_assoc. reflexivity.
Qed.
Lemma drop_blanks_plain s : hd_error s <> Some c_space -> drop_blanks s = s.
Proof. destruct s as [|c s]; [reflexivity|]. cbn [hd_error drop_blanks]. intro H. destruct (N.eqb_spec c c_space) as [->|N]; [contradiction|reflexivity]. Qed.
Lemma cut_join items : items <> [] -> (forall i, In i items -> plain_item i) -> map drop_blanks (cut_at c_comma (join (lit ", ") items) []) = items.
Proof.
  induction items as [|a items IH]; intros Hne H; [contradiction|]. destruct (H a (or_introl eq_refl)) as (_ & C & B). destruct items as [|b items].
  - cbn [join]. rewrite cut_at_plain by exact C. cbn [map app]. rewrite drop_blanks_plain by exact B. reflexivity.
  - specialize (IH ltac:(discriminate) (fun i I => H i (or_intror I))). destruct (H b (or_intror (or_introl eq_refl))) as (_ & Cb & Bb).
    change (join (lit ", ") (a :: b :: items)) with (a ++ c_comma :: (c_space :: join (lit ", ") (b :: items))). rewrite cut_at_app by exact C. cbn [app map]. rewrite drop_blanks_plain by exact B. f_equal.
    (* the blank after the comma *)
    change (c_space :: join (lit ", ") (b :: items)) with ([c_space] ++ join (lit ", ") (b :: items)). cbn [app cut_at]. change (c_space =? c_comma)%N with false. cbn iota. cbn [app].
    rewrite <- IH at 2. destruct items as [|d items].
    + cbn [join]. rewrite !cut_at_plain by exact Cb. reflexivity.
    + change (join (lit ", ") (b :: d :: items)) with (b ++ c_comma :: (c_space :: join (lit ", ") (d :: items))). rewrite !cut_at_app by exact Cb. cbn [map app]. f_equal.
Qed.
(** On Excel a list rule has the items it says, if no item has a comma or a quote in it or begins with a blank. *)
Theorem C62_excel_list_partial : forall serial p l, l <> [] -> (forall n, In n l -> plain_item (item_text n)) ->
  exists xv, excel_validation serial p (DVValueInList l) = Ok xv /\ xv_type xv = lit "List" /\ excel_items (xv_formula1 xv) = Some (map item_text l).
Proof.
  intros serial p l Hne H. eexists. split; [reflexivity|]. split; [reflexivity|]. cbn [xv_formula1].
  assert (M : map (fun n => filter (fun c => negb (c =? c_dquote)%N) (show n)) l = map item_text l).
  { apply map_ext_in. intros n I. apply unquote_item. apply H. exact I. }
  rewrite M. unfold excel_items, quoted. cbn [app]. change (c_dquote :: join (lit ", ") (map item_text l) ++ [c_dquote]) with ((c_dquote :: join (lit ", ") (map item_text l)) ++ [c_dquote]).
  rewrite rev_app_distr. cbn [rev app]. rewrite N.eqb_refl. cbn [andb]. rewrite removelast_last. rewrite cut_join; [reflexivity|destruct l; [contradiction|discriminate]|].
  intros i I. apply in_map_iff in I as (n & <- & I). apply H. exact I.
Qed.
Print Assumptions C62_excel_list_partial.
Example C62_list_nonvacuous : exists l, validation (cell_options (ex_cell "[[validate=in_list('yes' 'no' 3)]]a")) = Some (DVValueInList l) /\ map item_text l = [lit "yes"; lit "no"; lit "3"]
  /\ forall n, In n l -> plain_item (item_text n).
Proof.
  eexists. split; [vm_compute; reflexivity|]. split; [reflexivity|]. intros n I. repeat (destruct I as [<-|I]; [vm_compute; repeat split; intuition discriminate|]). destruct I.
Qed.
(** C62 refuted: an item with a comma is two items on Excel, and on Google Sheets every text is sent with quotes around it. *)
Theorem C62_excel_list_refuted : forall serial p a b, plain_item a -> plain_item b ->
  exists xv, excel_validation serial p (DVValueInList [NText (a ++ [c_comma] ++ b)]) = Ok xv /\ excel_items (xv_formula1 xv) = Some [a; b].
Proof.
  intros serial p a b (Qa & Ca & Ba) (Qb & Cb & Bb). eexists. split; [reflexivity|]. cbn [xv_formula1 map join].
  assert (M : filter (fun c => negb (c =? c_dquote)%N) (show (NText (a ++ [c_comma] ++ b))) = a ++ [c_comma] ++ b).
  { change (unquote (show (NText (a ++ [c_comma] ++ b))) = item_text (NText (a ++ [c_comma] ++ b))). cbn [show item_text]. unfold unquote. rewrite !filter_app. cbn [filter]. change (negb (c_dquote =? c_dquote)%N) with false.
    change (negb (c_comma =? c_dquote)%N) with true. cbn iota. rewrite app_nil_r. cbn [app]. fold (unquote a). fold (unquote b). rewrite !unquote_plain by assumption. reflexivity. }
  rewrite M. unfold excel_items, quoted. cbn [app]. change (c_dquote :: (a ++ c_comma :: b) ++ [c_dquote]) with ((c_dquote :: a ++ c_comma :: b) ++ [c_dquote]).
  rewrite rev_app_distr. cbn [rev app]. rewrite N.eqb_refl. cbn [andb]. rewrite removelast_last, cut_at_app, cut_at_plain by assumption. cbn [map app]. rewrite !drop_blanks_plain by assumption. reflexivity.
Qed.
Print Assumptions C62_excel_list_refuted.
Theorem C62_google_list_refuted : forall t, cd_values (google_condition (DVValueInList [NText t])) = [[c_dquote] ++ t ++ [c_dquote]].
Proof. reflexivity. Qed.
Print Assumptions C62_google_list_refuted.
(** A text without quotes becomes the string literal for it in the rules that look for a text; missing: quotes (next). *)
Lemma literal_plain t : ~ In c_dquote t -> formula_literal t = quoted t.
Proof.
  intro H. unfold formula_literal, quoted. f_equal. f_equal. induction t as [|c t IH]; [reflexivity|]. cbn [flat_map]. destruct (N.eqb_spec c c_dquote) as [->|N]; [exfalso; apply H; left; reflexivity|].
  cbn [app]. f_equal. apply IH. intro I. apply H. right. exact I.
Qed.
Theorem C62_text_partial : forall serial p t, ~ In c_dquote t ->
  option_map xv_formula1 (match excel_validation serial p (DVTextContains t) with Ok v => Some v | _ => None end) = Some (lit "=ISNUMBER(SEARCH(" ++ formula_literal t ++ lit ", " ++ show_address p ++ lit "))")
  /\ option_map xv_formula1 (match excel_validation serial p (DVTextEqualTo t) with Ok v => Some v | _ => None end) = Some (show_address p ++ lit " = " ++ formula_literal t).
Proof. intros serial p t H. rewrite literal_plain by exact H. split; reflexivity. Qed.
Print Assumptions C62_text_partial.
Theorem C62_text_refuted : forall serial p t, In c_dquote t ->
  option_map xv_formula1 (match excel_validation serial p (DVTextEqualTo t) with Ok v => Some v | _ => None end) <> Some (show_address p ++ lit " = " ++ formula_literal t).
Proof.
  intros serial p t H E. cbn [excel_validation option_map xv_formula1] in E. injection E as E. apply app_inv_head in E. apply (f_equal (@length N)) in E.
  unfold quoted, formula_literal in E. cbn [app length] in E. rewrite !app_length in E. cbn [length] in E.
  assert (K : length t < length (flat_map (fun c => if (c =? c_dquote)%N then [c; c] else [c]) t)).
  { assert (G : forall u, length u <= length (flat_map (fun c => if (c =? c_dquote)%N then [c; c] else [c]) u)).
    { induction u as [|c u IH]; cbn [flat_map length]; [lia|]. rewrite app_length. destruct (c =? c_dquote)%N; cbn [length]; lia. }
    clear E. induction t as [|c t IH]; [destruct H|]. cbn [flat_map length]. rewrite app_length. destruct H as [->|H].
    - rewrite N.eqb_refl. cbn [length]. specialize (G t). lia.
    - specialize (IH H). destruct (c =? c_dquote)%N; cbn [length]; lia. }
  lia.
Qed.
Print Assumptions C62_text_refuted.

(** ** C63: dates in rules on Excel *)
Lemma days_28 y m : (28 <= days_in_month y m)%Z.
Proof. unfold days_in_month. destruct (m =? 2)%Z; [destruct (leap y); lia|]. destruct (_ || _)%bool; lia. Qed.
Ltac months :=
  repeat match goal with
         | |- context [(?a <=? 2)%Z] => let b := eval vm_compute in (a <=? 2)%Z in change (a <=? 2)%Z with b
         | |- context [(153 * (?a mod 12) + 2)%Z] => let b := eval vm_compute in ((153 * (a mod 12) + 2) / 5)%Z in change ((153 * (a mod 12) + 2) / 5)%Z with b
         | |- context [((Zpos ?a) =? ?c)%Z] => let b := eval vm_compute in ((Zpos a) =? c)%Z in change ((Zpos a) =? c)%Z with b
         end; cbn [orb]; cbn iota.
Lemma day_number_next y m d : valid_date y m d -> forall y' m' d', next_day (y, m, d) = (y', m', d') -> day_number y' m' d' = (day_number y m d + 1)%Z /\ valid_date y' m' d'.
Proof.
  intros (Hm & Hd) y' m' d' E. unfold next_day in E. destruct (Z.ltb_spec d (days_in_month y m)) as [L|L].
  - injection E as <- <- <-. split; [unfold day_number; lia|]. split; lia.
  - assert (D : d = days_in_month y m) by lia. clear Hd L. subst d. destruct (Z.ltb_spec m 12) as [L|L]; injection E as <- <- <-.
    + assert (M : (m = 1 \/ m = 2 \/ m = 3 \/ m = 4 \/ m = 5 \/ m = 6 \/ m = 7 \/ m = 8 \/ m = 9 \/ m = 10 \/ m = 11)%Z) by lia.
      split; [|pose proof (days_28 y (m + 1)); unfold valid_date; lia].
      unfold day_number, days_in_month. destruct M as [->|[->|[->|[->|[->|[->|[->|[->|[->|[->| ->]]]]]]]]]]; months; try lia.
      unfold leap. destruct (Z.eqb_spec (y mod 4) 0), (Z.eqb_spec (y mod 100) 0), (Z.eqb_spec (y mod 400) 0); cbn [negb andb orb]; Z.div_mod_to_equations; lia.
    + assert (m = 12)%Z by lia. subst m. split; [|pose proof (days_28 (y + 1) 1); unfold valid_date; lia]. unfold day_number, days_in_month. months. replace (y + 1 - 1)%Z with y by lia. lia.
Qed.
(** For every date from 1 March 1900 on, the number in the rule is Excel's number for a day two days earlier. *)
Theorem C63_dates_refuted : forall y m d n, excel_serial (y, m, d) n -> distance_from_epoch y m d = (n - 2)%Z.
Proof.
  assert (X : forall t n, excel_serial t n -> let '(y, m, d) := t in valid_date y m d /\ distance_from_epoch y m d = (n - 2)%Z).
  { intros t n H. induction H as [|[[y m] d] n H IH].
    - split; [split; cbn; lia|reflexivity].
    - destruct IH as (V & IH). destruct (next_day (y, m, d)) as [[y' m'] d'] eqn:E. destruct (day_number_next y m d V y' m' d' E) as (N & V'). split; [exact V'|].
      unfold distance_from_epoch in *. lia. }
  intros y m d n H. exact (proj2 (X _ _ H)).
Qed.
Print Assumptions C63_dates_refuted.
Example C63_nonvacuous : excel_serial (1900, 3, 5)%Z 65 /\ distance_from_epoch 1900 3 5 = 63%Z /\ distance_from_epoch 2012 10 22 = 41202%Z.
Proof.
  split; [|split; reflexivity]. change (excel_serial (next_day (next_day (next_day (next_day (1900, 3, 1)%Z)))) (61 + 1 + 1 + 1 + 1)). repeat constructor.
Qed.
(** What is right about them: the operator, so that rules about two dates compare them as they should. *)
Theorem C63_operator_partial : forall serial p d n, serial d = Some n ->
  excel_validation serial p (DVDateAfter d) = Ok {| xv_type := lit "Date"; xv_operator := Some (lit "GreaterThan"); xv_formula1 := show_Z n; xv_formula2 := None |}
  /\ excel_validation serial p (DVDateBefore d) = Ok {| xv_type := lit "Date"; xv_operator := Some (lit "LessThan"); xv_formula1 := show_Z n; xv_formula2 := None |}
  /\ excel_validation serial p (DVDateOnOrAfter d) = Ok {| xv_type := lit "Date"; xv_operator := Some (lit "GreaterThanOrEqual"); xv_formula1 := show_Z n; xv_formula2 := None |}
  /\ excel_validation serial p (DVDateOnOrBefore d) = Ok {| xv_type := lit "Date"; xv_operator := Some (lit "LessThanOrEqual"); xv_formula1 := show_Z n; xv_formula2 := None |}
  /\ excel_validation serial p (DVDateEqualTo d) = Ok {| xv_type := lit "Date"; xv_operator := Some (lit "Equal"); xv_formula1 := show_Z n; xv_formula2 := None |}
  /\ forall e m, serial e = Some m ->
     excel_validation serial p (DVDateBetween d e) = Ok {| xv_type := lit "Date"; xv_operator := Some (lit "Between"); xv_formula1 := show_Z n; xv_formula2 := Some (show_Z m) |}
     /\ excel_validation serial p (DVDateNotBetween d e) = Ok {| xv_type := lit "Date"; xv_operator := Some (lit "NotBetween"); xv_formula1 := show_Z n; xv_formula2 := Some (show_Z m) |}.
Proof. intros serial p d n H. cbn [excel_validation]. rewrite H. repeat split; rewrite H0; reflexivity. Qed.
Print Assumptions C63_operator_partial.
