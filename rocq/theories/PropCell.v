(** * PropCell: cells, rows and their options (C38 - C43). *)
From Coq Require Import ZifyBool ZifyN.
From Verif Require Import Base BaseProofs Csvp Ast AstLexer AstParser FormulaSpec FormulaInv PropFormula Options CellLexer CellParser CellSpec CellProofs CellProofs2 CellProofs3 CellProofs8 CellLocal CellProofs9 CellProofs10.

(** An oracle for examples: two letters that are not ASCII; dates and A1 references stand for themselves. *)
Definition ex_co : cell_oracle :=
  {| co_oracle := {| o_unicode := {| u_word := fun c => ((c =? 233) || (c =? 20013))%N; u_digit := fun _ => false;
                                     u_alnum := fun c => ((c =? 233) || (c =? 20013))%N |};
                     f64_canon := ex_canon |};
     u_lower := fun c => [c]; date_canon := fun s => Some s; a1_canon := fun s => Some s |}.
Definition ex_field (x : nat) (s : str) : field :=
  {| f_address := {| addr_x := x; addr_y := 0 |}; f_value := s;
     f_positions := map (fun i => {| line_number := 0; line_offset := i |}) (seq 0 (length s)) |}.

(** ** C38 *)
(** Whatever the characters: a field of a CSV text that does not start with an option list becomes a
    cell with exactly that text, the row's options and no variable; it is a formula exactly when the
    text starts with an equals sign; the row is unchanged. The only possible failure is that the
    formula itself cannot be read. *)
Theorem C38_verbatim : forall co cfg inp rs y fs f r,
  csvp_parse cfg inp = Ok rs -> nth_error rs y = Some fs -> In f fs -> no_list (f_value f) ->
  match cell_parse co f r with
  | Ok (c, r') => r' = r /\ cell_field c = f /\ parsed_value c = f_value f /\ cell_var c = None
      /\ cell_options c = row_options r /\ formula_of co (f_value f) (cell_ast c)
      /\ (~ is_formula (f_value f) -> show_cell c = f_value f)
  | Err e => is_formula (f_value f) /\ le_address e = f_address f
  | Panic | NoFuel => is_formula (f_value f) /\ ~ cuttable (f_value f)
  end.
Proof.
  intros co cfg inp rs y fs f r HP Hy Hf N. unfold cell_parse. rewrite (parse_cell_plain co f r N). cbn [at_address bind].
  destruct (csvp_trimmed _ _ _ _ _ _ HP Hy Hf) as [raw Ev].
  change (parsed_value (cell_after f [] (f_value f) r)) with (trim (f_value f)).
  assert (ET : trim (f_value f) = f_value f) by (rewrite Ev; apply trim_idem). rewrite ET.
  pose proof (parse_formula_spec co f (f_value f)) as P. destruct (parse_formula co f (f_value f)) as [a|e| |]; cbn [bind].
  - split; [reflexivity|]. split; [reflexivity|]. split; [reflexivity|]. split; [reflexivity|]. split.
    + unfold cell_after, cell_opts, row_opts. cbn -[apply_opts]. rewrite !apply_opts_nil. reflexivity.
    + split; [exact P|]. intro F. unfold show_cell. cbn -[apply_opts]. destruct P as [[F' _]|[_ ->]]; [contradiction|reflexivity].
  - destruct P as [F [pe [_ ->]]]. split; [exact F|reflexivity].
  - destruct P as [F P]. split; [exact F|]. intro C. destruct (parse_total (co_oracle co) false _ C) as [[? T]|[? T]]; congruence.
  - destruct P as [F P]. split; [exact F|]. intro C. destruct (parse_total (co_oracle co) false _ C) as [[? T]|[? T]]; congruence.
Qed.
Print Assumptions C38_verbatim.
Definition ex_cfg : config := {| lines_above := 0; separator := 44%N |}.
Example C38_example : exists rs fs f c,
  csvp_parse ex_cfg (lit "a,  = 1 + 2 ,c") = Ok rs /\ nth_error rs 0 = Some fs /\ nth_error fs 1 = Some f /\ no_list (f_value f)
  /\ cell_parse ex_co f default_row = Ok (c, default_row) /\ show_cell c = lit "=(1 + 2)".
Proof.
  do 4 eexists. split; [vm_compute; reflexivity|]. split; [reflexivity|]. split; [reflexivity|].
  split; [split; intros [r H]; discriminate|]. split; vm_compute; reflexivity.
Qed.

(** ** C40, C39 *)
(** Reading the row of any record of any ASCII text ends in a row or an error, never in a panic; if it
    ends in a row then each field consists of correctly placed option lists and a value, and the row
    and its cells have exactly the options, fill, variables, formulas and texts these say
    ([row_means]). Missing: texts with other characters, for which it is false (below). *)
Theorem C40_row_sound_partial : forall co cfg inp rs y fs,
  csvp_parse cfg inp = Ok rs -> nth_error rs y = Some fs -> forallb is_ascii inp = true ->
  match row_parse co fs with
  | Ok r => exists rds, Forall2 (reads co false) fs rds
      /\ (forall i rd, nth_error rds i = Some rd -> well_placed i (rd_lists rd)) /\ row_means co y fs rds r
  | Err _ => True
  | Panic | NoFuel => False
  end.
Proof.
  intros co cfg inp rs y fs H Hy A. apply row_parse_sound; [eapply csvp_record; eauto|eapply csvp_ascii; eauto].
Qed.
Print Assumptions C40_row_sound_partial.
(** Only the option lists need to be ASCII for an accepted row to mean what it says: any characters may stand in the values of
    the cells. *)
Theorem C40_row_accepted_partial : forall co cfg inp rs y fs r,
  csvp_parse cfg inp = Ok rs -> nth_error rs y = Some fs -> Forall (fun f => ascii_lists (f_value f)) fs -> row_parse co fs = Ok r ->
  exists rds, Forall2 (reads co false) fs rds /\ Forall (fun rd => forallb is_ascii (rd_text rd) = true) rds
    /\ (forall i rd, nth_error rds i = Some rd -> well_placed i (rd_lists rd)) /\ row_means co y fs rds r.
Proof. intros co cfg inp rs y fs r H Hy A. apply row_accepted; [eapply csvp_record; eauto|exact A]. Qed.
Print Assumptions C40_row_accepted_partial.
(** Conversely, when every field of the record is written as option lists (in ASCII, with spaces between options
    and between arguments) and a value of whatever characters, the row is accepted exactly when the lists are well placed and
    each formula can be read; for the rejection, each value must be one that can be cut anywhere (C48), as all ASCII and all
    short texts are. *)
Theorem C40_row_complete_partial : forall co cfg inp rs y fs rds,
  csvp_parse cfg inp = Ok rs -> nth_error rs y = Some fs ->
  Forall2 (reads co true) fs rds -> Forall (fun rd => forallb is_ascii (rd_text rd) = true) rds ->
  let fine := (forall i rd, nth_error rds i = Some rd -> well_placed i (rd_lists rd)) /\
              Forall (fun rd => exists a, formula_of co (trim (rd_value rd)) a) rds in
  (fine -> exists r, row_parse co fs = Ok r)
  /\ (Forall (fun rd => cuttable (trim (rd_value rd))) rds -> ~ fine -> exists e, row_parse co fs = Err e).
Proof.
  intros co cfg inp rs y fs rds H Hy F2 A. apply (row_parse_complete co y); [eapply csvp_record; eauto|exact A|exact F2].
Qed.
Print Assumptions C40_row_complete_partial.
(** The same for a single cell, with the resulting cell and row. *)
Theorem C40_cell_partial : forall co f r t ls v,
  forallb is_ascii t = true -> located f -> f_value f = t ++ v -> lists_text co true t ls -> no_list v ->
  (well_placed (addr_x (f_address f)) ls -> parse_cell co f r = Ok (cell_after f ls v r, row_after f ls r)) /\
  (~ well_placed (addr_x (f_address f)) ls -> exists e, parse_cell co f r = Err e).
Proof. intros co f r t ls v A L. apply cell_complete; assumption. Qed.
Print Assumptions C40_cell_partial.
Theorem C40_cell_sound_partial : forall co f r, forallb is_ascii (f_value f) = true -> located f ->
  match parse_cell co f r with
  | Ok (c, r') => exists t ls v, f_value f = t ++ v /\ lists_text co false t ls /\ well_placed (addr_x (f_address f)) ls /\ no_list v
      /\ c = cell_after f ls v r /\ r' = row_after f ls r
  | Err _ => True | Panic | NoFuel => False
  end.
Proof. intros co f r A L. apply parse_cell_sound; assumption. Qed.
Print Assumptions C40_cell_sound_partial.
Theorem C40_cell_accepted_partial : forall co f r c r', ascii_lists (f_value f) -> parse_cell co f r = Ok (c, r') ->
  exists t ls v, f_value f = t ++ v /\ forallb is_ascii t = true /\ lists_text co false t ls /\ well_placed (addr_x (f_address f)) ls /\ no_list v
      /\ c = cell_after f ls v r /\ r' = row_after f ls r.
Proof. intros co f r c r'. apply cell_accepted. Qed.
Print Assumptions C40_cell_accepted_partial.
(** What makes a list end is where its brackets close: whatever replaces the text after an ASCII option list, the options stay the same. *)
Theorem C40_value_independent_partial : forall co f f' r t ls v v' c r', forallb is_ascii t = true -> located f -> located f' ->
  f_address f' = f_address f -> f_value f = t ++ v -> f_value f' = t ++ v' -> lists_text co true t ls -> no_list v -> no_list v' ->
  parse_cell co f r = Ok (c, r') -> exists c', parse_cell co f' r = Ok (c', r') /\ cell_options c' = cell_options c /\ cell_var c' = cell_var c
    /\ parsed_value c' = trim v'.
Proof.
  intros co f f' r t ls v v' c r' A L L' Ea E E' H N N' P. destruct (cell_complete co f r t ls v A L E H N) as [C1 C2].
  destruct (placed_dec (addr_x (f_address f)) ls) as [W|W]; [|destruct (C2 W) as [e C3]; congruence]. rewrite (C1 W) in P. injection P as <- <-.
  destruct (cell_complete co f' r t ls v' A L' E' H N') as [D1 _]. rewrite Ea in D1. exists (cell_after f' ls v' r). split.
  - rewrite (D1 W). f_equal. f_equal. unfold row_after. rewrite Ea. reflexivity.
  - repeat split.
Qed.
Print Assumptions C40_value_independent_partial.
Lemma ascii_lists_value p v : forallb is_ascii p = true -> existsb (fun c => (c =? c_rbracket)%N) v = false -> ascii_lists (p ++ v).
Proof.
  revert p. assert (V : forall v, existsb (fun c => (c =? c_rbracket)%N) v = false -> forall a b, v <> a ++ lit "]]" ++ b).
  { intros w H a b ->. rewrite existsb_app in H. apply orb_false_iff in H as [_ H]. discriminate H. }
  induction p as [|c p IH]; intros A H a b E.
  - destruct (V v H a b E).
  - cbn [forallb] in A. apply andb_prop in A as [Ac A]. destruct a as [|d a]; [reflexivity|]. cbn [app] in E. injection E as <- E.
    cbn [forallb]. rewrite Ac. exact (IH A H a b E).
Qed.
Example C40_multibyte_value : exists c, parse_cell ex_co (ex_field 0 (lit "[[c=#123]] " ++ [20013; 233; 20013]%N)) default_row = Ok (c, default_row)
  /\ color (cell_options c) = Some {| red := 17; green := 34; blue := 51 |} /\ parsed_value c = [20013; 233; 20013]%N
  /\ ascii_lists (lit "[[c=#123]] " ++ [20013; 233; 20013]%N).
Proof.
  eexists. split; [vm_compute; reflexivity|]. split; [reflexivity|]. split; [reflexivity|]. apply ascii_lists_value; reflexivity.
Qed.
Definition ex_row_text : str := lit "![[f=3 c=#FFF t=b]] [[v=x ha=L n='it\'s' t=i dv=num_btwn(1 20)]]one,[[b=t b=all]]=x + 1, [[fs=12]]".
Example C40_example : exists rs fs r c0 c1,
  csvp_parse ex_cfg ex_row_text = Ok rs /\ nth_error rs 0 = Some fs /\ forallb is_ascii ex_row_text = true
  /\ row_parse ex_co fs = Ok r
  /\ row_fill r = Some {| fill_amount := Some 3; start_row := 0 |} /\ length (row_cells r) = 3
  /\ nth_error (row_cells r) 0 = Some c0 /\ nth_error (row_cells r) 1 = Some c1
  /\ note (cell_options c0) = Some (lit "it's") /\ cell_var c0 = Some (lit "x")
  /\ text_formats (cell_options c0) = [TFBold; TFItalic] /\ text_formats (cell_options c1) = [TFBold]
  /\ borders (cell_options c1) = [BTop; BAll] /\ show_cell c0 = lit "one" /\ show_cell c1 = lit "=(x + 1)".
Proof.
  do 5 eexists. split; [vm_compute; reflexivity|]. split; [reflexivity|]. split; [reflexivity|]. split; [vm_compute; reflexivity|].
  split; [reflexivity|]. split; [reflexivity|]. split; [reflexivity|]. split; [reflexivity|]. repeat split; vm_compute; reflexivity.
Qed.
(** C40 refuted for other characters: reading a colour or a name may cut a character in two, and an
    error position counts bytes and may lie past the end of the field. *)
Theorem C40_multibyte_refuted :
  parse_cell ex_co (ex_field 0 (lit "[[c=a" ++ [233; 20013]%N ++ lit "]]")) default_row = Panic
  /\ parse_cell ex_co (ex_field 0 (lit "[[c=" ++ [20013]%N)) default_row = Panic
  /\ parse_cell ex_co (ex_field 0 (lit "[[" ++ [20013; 20013]%N)) default_row = Panic.
Proof. repeat split; vm_compute; reflexivity. Qed.
Print Assumptions C40_multibyte_refuted.
(** C40: two options need not be separated, so one list text may be read in a way nobody would expect:
    a note directly followed by a colour. *)
Theorem C40_unseparated_options_accepted : exists c,
  parse_cell ex_co (ex_field 0 (lit "[[n='a'c=#123]]x")) default_row = Ok (c, default_row)
  /\ note (cell_options c) = Some (lit "a") /\ color (cell_options c) = Some {| red := 17; green := 34; blue := 51 |}.
Proof.
  exists (match parse_cell ex_co (ex_field 0 (lit "[[n='a'c=#123]]x")) default_row with
          | Ok (c, _) => c | _ => cell_default_from default_row (ex_field 0 []) end).
  split; [vm_compute; reflexivity|]. split; vm_compute; reflexivity.
Qed.

(** Each cell has the row's options with its own on top; the row's options are those of the row lists
    at the start of the record. Missing: row lists that follow the first cell's own list reach every
    other cell but not the first (below). *)
Theorem C39_row_options_inherited_partial : forall co cfg inp rs y fs r,
  csvp_parse cfg inp = Ok rs -> nth_error rs y = Some fs -> Forall (fun f => ascii_lists (f_value f)) fs -> row_parse co fs = Ok r ->
  exists rds, Forall2 (reads co false) fs rds /\ length (row_cells r) = length fs
    /\ row_options r = apply_opts (row_opts (row_lists rds)) default_options
    /\ forall i rd c, nth_error rds i = Some rd -> nth_error (row_cells r) i = Some c ->
       0 < i \/ before_cell (rd_lists rd) = filter fst (rd_lists rd) ->
       cell_options c = apply_opts (cell_opts (rd_lists rd)) (row_options r).
Proof.
  intros co cfg inp rs y fs r H Hy A HR. destruct (C40_row_accepted_partial co cfg inp rs y fs r H Hy A HR) as [rds [F2 [_ [_ M]]]]. exists rds. split; [exact F2|]. split; [apply M|]. split; [apply M|].
  intros i rd c Hrd Hc Hi.
  assert (exists f, nth_error fs i = Some f) as [f Hf].
  { destruct (nth_error fs i) eqn:E; [eauto|]. apply nth_error_None in E. rewrite <- (rm_length _ _ _ _ _ M) in E.
    apply nth_error_None in E. congruence. }
  rewrite (cm_options _ _ _ _ _ _ (rm_cells _ _ _ _ _ M i f rd c Hf Hrd Hc)). f_equal.
  destruct i as [|i]; cbn [Nat.eqb]; [|reflexivity]. destruct Hi as [Hi|Hi]; [inversion Hi|].
  rewrite (rm_options _ _ _ _ _ M). destruct rds as [|rd0 rds]; [discriminate|]. injection Hrd as ->. cbn [row_lists].
  unfold row_opts at 1. rewrite Hi. clear. f_equal. unfold row_opts. f_equal. f_equal.
  induction (rd_lists rd) as [|[[] os] l IH]; cbn; [reflexivity|rewrite IH; reflexivity|exact IH].
Qed.
Print Assumptions C39_row_options_inherited_partial.
Example C39_own_options_win : exists rs fs r c0 c1,
  csvp_parse ex_cfg (lit "![[c=fff t=b]]a,[[c=000]]b") = Ok rs /\ nth_error rs 0 = Some fs /\ row_parse ex_co fs = Ok r
  /\ nth_error (row_cells r) 0 = Some c0 /\ nth_error (row_cells r) 1 = Some c1
  /\ color (cell_options c0) = Some {| red := 255; green := 255; blue := 255 |}
  /\ color (cell_options c1) = Some {| red := 0; green := 0; blue := 0 |} /\ text_formats (cell_options c1) = [TFBold].
Proof.
  do 5 eexists. split; [vm_compute; reflexivity|]. split; [reflexivity|]. split; [vm_compute; reflexivity|].
  split; [reflexivity|]. split; [reflexivity|]. repeat split; vm_compute; reflexivity.
Qed.
Theorem C39_list_order_refuted : exists rs fs r c0 c1,
  csvp_parse ex_cfg (lit "[[c=fff]]![[t=b]]a,b") = Ok rs /\ nth_error rs 0 = Some fs /\ row_parse ex_co fs = Ok r
  /\ nth_error (row_cells r) 0 = Some c0 /\ nth_error (row_cells r) 1 = Some c1
  /\ text_formats (row_options r) = [TFBold] /\ text_formats (cell_options c1) = [TFBold] /\ text_formats (cell_options c0) = [].
Proof.
  do 5 eexists. split; [vm_compute; reflexivity|]. split; [reflexivity|]. split; [vm_compute; reflexivity|].
  split; [reflexivity|]. split; [reflexivity|]. repeat split; vm_compute; reflexivity.
Qed.
Print Assumptions C39_list_order_refuted.

(** ** C41 *)
(** Any ASCII text, written between single quotes with quotes and backslashes escaped, is stored as
    the note it is, and what follows the list, of whatever characters, is the cell's value. *)
Theorem C41_note_round_trip_partial : forall co f r s v, located f -> forallb is_ascii s = true -> no_list v ->
  f_value f = lit "[[note='" ++ escape s ++ lit "']]" ++ v ->
  exists c, parse_cell co f r = Ok (c, r) /\ note (cell_options c) = Some s /\ parsed_value c = trim v
    /\ color (cell_options c) = color (row_options r) /\ cell_var c = None.
Proof.
  intros co f r s v L As N E.
  assert (Ae : ascii (escape s)).
  { clear -As. induction s as [|c s IH]; [reflexivity|]. apply ascii_cons in As as [Ac As]. unfold escape in *. cbn [flat_map].
    apply ascii_app. split; [|exact (IH As)]. destruct ((c =? c_squote) || (c =? c_backslash))%N; unfold ascii; cbn; rewrite Ac; reflexivity. }
  assert (T : opt_text co true false (lit "note" ++ [c_eq] ++ [c_squote] ++ escape s ++ [c_squote]) (ONote s)).
  { eapply ot_note with (w := [c_squote] ++ escape s ++ [c_squote]).
    - right. left. reflexivity.
    - exists [], []. split; [reflexivity|]. split; reflexivity.
    - left. exists (escape s). split; [reflexivity|]. apply escape_body. }
  eexists. split.
  - apply (one_option co f r _ _ v T); [| |exact L|exact N].
    + rewrite E. change (lit "[[note='") with (lit "[[" ++ lit "note" ++ [c_eq] ++ [c_squote]). change (lit "']]" ++ v) with ([c_squote] ++ lit "]]" ++ v).
      rewrite <- !app_assoc. reflexivity.
    + repeat (apply ascii_app; split); auto; reflexivity.
  - repeat split.
Qed.
Print Assumptions C41_note_round_trip_partial.
Example C41_example : exists c, parse_cell ex_co (ex_field 0 (lit "[[note='it\'s a \\ [[x]], ok']]y")) default_row = Ok (c, default_row)
  /\ note (cell_options c) = Some (lit "it's a \ [[x]], ok") /\ parsed_value c = lit "y".
Proof. eexists. repeat split; vm_compute; reflexivity. Qed.
(** Refuted for other characters: the length of the quoted text is counted in characters but skipped
    in bytes, so reading goes on inside the quotes (an error, or a wrong value) or inside a character
    (a panic). *)
Theorem C41_multibyte_refuted :
  (exists e, parse_cell ex_co (ex_field 0 (lit "[[note='" ++ [233]%N ++ lit "']]v")) default_row = Err e)
  /\ (exists c, parse_cell ex_co (ex_field 0 (lit "[[note='" ++ [20013; 20013]%N ++ lit " ]]x']]v")) default_row = Ok (c, default_row)
        /\ parsed_value c = lit "x']]v")
  /\ parse_cell ex_co (ex_field 0 (lit "[[note='" ++ [20013]%N ++ lit "']]v")) default_row = Panic.
Proof.
  split; [eexists; vm_compute; reflexivity|]. split; [|vm_compute; reflexivity]. eexists. split; vm_compute; reflexivity.
Qed.
Print Assumptions C41_multibyte_refuted.

(** ** C42 *)
(** Every colour prints as a hash sign and six upper case hexadecimal digits, and reading that gives
    the colour back. *)
Theorem C42_round_trip : forall c, (red c < 256)%N -> (green c < 256)%N -> (blue c < 256)%N ->
  parse_rgb (show_rgb c) = Ok c
  /\ exists a1 a2 b1 b2 c1 c2, show_rgb c = [c_hash; a1; a2; b1; b2; c1; c2]
     /\ Forall (fun x => (48 <= x <= 57 \/ 65 <= x <= 70)%N) [a1; a2; b1; b2; c1; c2].
Proof.
  intros c R G B. pose proof (show_rgb_text c R G B) as T. split.
  - destruct (color_chars _ _ T) as [A P]. pose proof (parse_rgb_spec _ A P) as S1.
    destruct (parse_rgb (show_rgb c)) as [c'|u| |]; try contradiction.
    + f_equal. eapply color_text_unique; eauto.
    + destruct (S1 c T).
  - do 6 eexists. split; [reflexivity|].
    assert (D : forall n, (n < 16)%N -> (48 <= hex_char n <= 57 \/ 65 <= hex_char n <= 70)%N).
    { intros n H. unfold hex_char. destruct (N.ltb_spec n 10); lia. }
    assert (Q : forall x, (x < 256)%N -> (x / 16 < 16)%N /\ (x mod 16 < 16)%N).
    { intros x H. split; [apply N.div_lt_upper_bound; lia|apply N.mod_lt; lia]. }
    repeat (apply Forall_cons; [apply D; apply Q; assumption|]). apply Forall_nil.
Qed.
Print Assumptions C42_round_trip.
(** Among the texts made of letters, digits and hash signs (which is what a colour option hands over)
    exactly those of three or six hexadecimal digits with an optional hash sign are read. Missing:
    texts with a plus sign or with other characters, which cannot be written as a colour option or
    panic. *)
Theorem C42_accepted_exactly_partial : forall s c, forallb (fun x => is_ascii_alnum x || (x =? c_hash)%N) s = true ->
  (parse_rgb s = Ok c <-> color_text s c) /\ ((exists c', parse_rgb s = Ok c') \/ (exists e, parse_rgb s = Err e)).
Proof.
  intros s c H.
  assert (A : ascii s /\ no_plus s).
  { unfold ascii, no_plus. rewrite !forallb_forall in *. split; intros x Hx; apply H in Hx;
    unfold is_ascii, is_ascii_alnum, is_ascii_alpha, is_ascii_upper, is_ascii_lower, is_ascii_digit, c_hash, c_plus in *; lia. }
  destruct A as [A P]. pose proof (parse_rgb_spec s A P) as S1. destruct (parse_rgb s) as [c'|e| |]; try contradiction.
  - split; [|eauto]. split; [intro E; injection E as <-; exact S1|]. intro T. f_equal. eapply color_text_unique; eauto.
  - split; [|eauto]. split; [discriminate|]. intro T. destruct (S1 c T).
Qed.
Print Assumptions C42_accepted_exactly_partial.
(** Upper and lower case digits mean the same. *)
Theorem C42_case_insensitive : forall s c, color_text s c -> color_text (lower s) c.
Proof.
  assert (X : forall x d, is_hex x d -> is_hex (if ((65 <=? x) && (x <=? 90))%N then (x + 32)%N else x) d).
  { intros x d H. unfold is_hex in *. destruct ((65 <=? x) && (x <=? 90))%N eqn:E; lia. }
  assert (Y : forall s c, hex_text s c -> hex_text (lower s) c).
  { intros s c H. destruct H; cbn [lower map]; constructor; apply X; assumption. }
  intros s c [H|[r [-> H]]]; [left; apply Y; exact H|]. right. exists (lower r). split; [reflexivity|apply Y; exact H].
Qed.
Print Assumptions C42_case_insensitive.
Example C42_example : parse_rgb (lit "#aBc") = Ok {| red := 170; green := 187; blue := 204 |}
  /\ parse_rgb (lit "0B33F0") = Ok {| red := 11; green := 51; blue := 240 |} /\ show_rgb {| red := 11; green := 51; blue := 240 |} = lit "#0B33F0".
Proof. repeat split; vm_compute; reflexivity. Qed.
(** Outside those texts: a plus sign is taken for a digit, and a multi-byte character is cut. *)
Theorem C42_plus_refuted : parse_rgb (lit "+1+2+3") = Ok {| red := 1; green := 2; blue := 3 |}
  /\ parse_rgb (lit "a" ++ [233; 20013]%N) = Panic.
Proof. split; vm_compute; reflexivity. Qed.
Print Assumptions C42_plus_refuted.

(** ** C43 *)
Lemma choices_name_ascii ns t n : In (ns, t) choices -> one_of n ns -> ascii n.
Proof.
  intros H Hn. destruct (choices_kind ns t n H Hn) as [k [g [_ [[_ Ho] _]]]]. unfold ascii. rewrite forallb_forall in *. intros c Hc. specialize (Ho c Hc).
  unfold is_ascii_alnum, is_ascii_alpha, is_ascii_upper, is_ascii_lower, is_ascii_digit, is_ascii in *. lia.
Qed.
(** For every option whose value is a word of a documented table: the option is set to the table's
    value when the word is one of the documented spellings in any mixture of cases, and the cell is
    rejected otherwise. *)
Theorem C43_spellings : forall co f r ns t n X v, located f -> no_list v ->
  In (ns, t) choices -> one_of n ns -> word X ->
  f_value f = lit "[[" ++ n ++ [c_eq] ++ X ++ lit "]]" ++ v ->
  (forall o, spelled t (lower X) o ->
     exists c, parse_cell co f r = Ok (c, r) /\ cell_options c = apply_opts [o] (row_options r) /\ parsed_value c = trim v)
  /\ ((forall o, ~ spelled t (lower X) o) -> exists e, parse_cell co f r = Err e).
Proof.
  intros co f r ns t n X v L N Hc Hn HX E. rewrite <- (to_lowercase_ascii co X (word_ascii X HX)). split.
  - intros o Ho. exists (cell_after f [(false, [o])] v r). split.
    + eapply one_option; eauto.
      * eapply choice_text; eauto.
      * rewrite E, <- !app_assoc. reflexivity.
      * apply ascii_app. split; [apply (choices_name_ascii ns t n Hc Hn)|]. apply (ascii_app [c_eq] X). split; [reflexivity|]. apply CellProofs10.word_ascii. exact HX.
    + split; [|reflexivity]. unfold cell_after, cell_opts, row_opts. cbn -[apply_opts]. rewrite apply_opts_nil. reflexivity.
  - intro Ho. destruct (choices_kind ns t n Hc Hn) as [k [g [Hk [Hno G]]]]. destruct (G co) as [Hg Hs].
    edestruct choice_reject as [e [Ee _]]; eauto. destruct (g (to_lowercase co X)) as [o|] eqn:Eg; [|reflexivity].
    destruct (Ho o). apply Hs. exact Eg.
Qed.
Print Assumptions C43_spellings.
Example C43_example : exists c, parse_cell ex_co (ex_field 0 (lit "[[borderstyle=Solid_Thick]]x")) default_row = Ok (c, default_row)
  /\ border_style_ (cell_options c) = BSolidThick.
Proof. eexists. split; vm_compute; reflexivity. Qed.
(** No spelling is ambiguous. *)
Theorem C43_unambiguous : forall ns t s o o', In (ns, t) choices -> spelled t s o -> spelled t s o' -> o = o'.
Proof.
  intros ns t s o o' H H1 H2. assert (Hn : exists n, one_of n ns).
  { unfold choices in H. cbn [In] in H. repeat (destruct H as [H|H]; [apply pair_equal_spec in H as [<- <-]; eexists; left; reflexivity|]). contradiction. }
  destruct Hn as [n Hn]. destruct (choices_kind ns t n H Hn) as [k [g [_ [_ G]]]]. destruct (G ex_co) as [_ Hs].
  apply Hs in H1. apply Hs in H2. congruence.
Qed.
Print Assumptions C43_unambiguous.
(** The short names of the number validations that the manual lists are rejected; the program has
    num_... instead of number_... *)
Theorem C43_documented_number_aliases_refuted : forall s,
  In s (map lit ["number_btwn(1 2)"; "number_eq(1)"; "number_gt(1)"; "number_gte(1)"; "number_lt(1)"; "number_lte(1)"; "number_nbtwn(1 2)"; "number_neq(1)"]%string) ->
  exists e, parse_cell ex_co (ex_field 0 (lit "[[validate=" ++ s ++ lit "]]x")) default_row = Err e.
Proof.
  intros s H. cbn [map In] in H. repeat (destruct H as [<-|H]; [eexists; vm_compute; reflexivity|]). contradiction.
Qed.
Print Assumptions C43_documented_number_aliases_refuted.
