(** * Properties C01-C07: the CSV reader.
    Specification: CsvpSpec.v (what a document is and which table it denotes). *)
From Coq Require Import Sorting.Sorted.
From Verif Require Import Base Csvp CsvpSpec CsvpProofs CsvpTotal CsvpLayout.

(** Documents used by the examples. *)
Definition ex_doc : document := {|
  blank_lines := 2;
  items := [ Record_ [Bare [lit "foo"]; Quoted (lit " ") (lit "a ""b"", c") (lit "  "); Bare [lit " bar "]];
             Comment (lit " a comment, with ""quotes""");
             Record_ [Bare [lit "this "; lit "spans"; lit " lines"]; Bare [lit ""]];
             Record_ [Bare [lit "x"]; Quoted [] (lit "end") [] ] ];
  final_newline := false |}.
Example ex_doc_ok : doc_ok c_comma ex_doc = true.
Proof. reflexivity. Qed.
Example ex_doc_values : doc_values ex_doc =
  [[lit "foo"; lit "a ""b"", c"; lit "bar"]; [lit "this spans lines"; []]; [lit "x"; lit "end"]].
Proof. reflexivity. Qed.

(** C01: a plain table, one record per line, reads back as itself. *)
Theorem C01_plain_table_round_trip : forall (cfg : config) (t : list (list str)),
  sep_ok (separator cfg) = true ->
  plain_table (separator cfg) t = true ->
  exists rs, csvp_parse cfg (render_table (separator cfg) t) = Ok rs /\ values rs = t.
Proof. exact csvp_plain_table. Qed.
Print Assumptions C01_plain_table_round_trip.
Example C01_nonvacuous :
  plain_table c_comma [[lit "foo"; []; lit "bar baz"]; [[]]; [lit "1.5"; lit "=A1 * 2"]] = true
  /\ sep_ok c_comma = true.
Proof. split; reflexivity. Qed.

(** C01/C02/C04/C05 in one: every well-formed document denotes what the parser reads. *)
Theorem C01_every_document_reads_as_its_table : forall (cfg : config) (d : document),
  doc_ok (separator cfg) d = true ->
  exists rs, csvp_parse cfg (render (separator cfg) d) = Ok rs /\ values rs = doc_values d.
Proof. exact csvp_document. Qed.
Print Assumptions C01_every_document_reads_as_its_table.

(** C01: the separator hypothesis is needed: with a tab as separator (allowed by [Config])
    leading empty fields vanish, because tabs are skipped as white space. *)
Theorem C01_tab_separator_refuted :
  exists t rs, plain_table c_tab t = true /\
    csvp_parse {| separator := c_tab; lines_above := 0 |} (render_table c_tab t) = Ok rs
    /\ values rs <> t.
Proof. exists [[lit "a"; []; lit "b"]]. eexists. split; [reflexivity|]. split; [vm_compute; reflexivity|]. vm_compute. discriminate. Qed.
Print Assumptions C01_tab_separator_refuted.

(** C02 (partial): a quoted cell reads back whatever its text, when it is followed by the separator
    or by the end of the file. Missing: a quoted cell at the end of a line that is not the last
    (refuted below). *)
Theorem C02_quoted_cell_partial : forall (cfg : config) (lead text trail : str) (next : list cell_src),
  sep_ok (separator cfg) = true ->
  blank_in_line lead = true -> blank trail = true ->
  (next <> [] -> cells_ok (separator cfg) (eof_cell_ok (separator cfg)) next = true) ->
  exists rs, csvp_parse cfg
      (render_item (separator cfg) (Record_ (Quoted lead text trail :: next))) = Ok rs
    /\ values rs = [trim text :: map cell_value next].
Proof. exact quoted_cell_record. Qed.
Print Assumptions C02_quoted_cell_partial.
Example C02_nonvacuous :
  blank_in_line (lit "  ") = true /\ blank (lit " ") = true /\
  cells_ok c_comma (eof_cell_ok c_comma) [Bare [lit "x"]; Quoted [] (lit "y,""") []] = true.
Proof. repeat split. Qed.

(** C02 refuted in full: a record ending in a quoted cell, followed by another line, is rejected
    for every text and every next line that starts with an ordinary character ... *)
Theorem C02_quoted_cell_before_newline_refuted : forall (cfg : config) (text : str) (c : char) (r : str),
  sep_ok (separator cfg) = true -> is_ws c = false -> c <> separator cfg ->
  exists e, csvp_parse cfg
    ([c_dquote] ++ double_quotes text ++ [c_dquote] ++ [c_nl] ++ c :: r) = Err e.
Proof. exact quoted_then_line_is_error. Qed.
Print Assumptions C02_quoted_cell_before_newline_refuted.
(** ... and silently glued to the next line when that starts with the separator. *)
Theorem C02_quoted_cell_glues_lines_refuted :
  exists rs, csvp_parse default_config (lit """a""" ++ [c_nl] ++ lit ",b") = Ok rs
    /\ values rs = [[lit "a"; lit "b"]].
Proof. eexists. split; [vm_compute; reflexivity|reflexivity]. Qed.
Print Assumptions C02_quoted_cell_glues_lines_refuted.

(** C03: addresses. *)
Theorem C03_addresses : forall (cfg : config) (inp : str) (rs : list (list field)),
  csvp_parse cfg inp = Ok rs ->
  forall r fs, nth_error rs r = Some fs ->
    fs <> [] /\
    forall c f, nth_error fs c = Some f -> f_address f = {| addr_x := c; addr_y := r |}.
Proof. exact csvp_addresses. Qed.
Print Assumptions C03_addresses.
Example C03_nonvacuous : exists rs,
  csvp_parse default_config (lit "a,b" ++ [c_nl] ++ lit "#x" ++ [c_nl] ++ lit "c,,d") = Ok rs
  /\ map (map f_address) rs =
     [[{| addr_x := 0; addr_y := 0 |}; {| addr_x := 1; addr_y := 0 |}];
      [{| addr_x := 0; addr_y := 1 |}; {| addr_x := 1; addr_y := 1 |}; {| addr_x := 2; addr_y := 1 |}]].
Proof. eexists. split; vm_compute; reflexivity. Qed.

(** C04: inserting a comment line before any item, and any number of leading blank lines, changes
    neither values nor addresses. *)
Theorem C04_comments_and_blank_lines : forall cfg n n' a b t final,
  b <> [] -> forallb (fun c => negb (c =? c_nl)%N) t = true ->
  doc_ok (separator cfg) {| blank_lines := n; items := a ++ b; final_newline := final |} = true ->
  exists rs rs',
    csvp_parse cfg (render (separator cfg)
      {| blank_lines := n; items := a ++ b; final_newline := final |}) = Ok rs
    /\ csvp_parse cfg (render (separator cfg)
      {| blank_lines := n'; items := a ++ Comment t :: b; final_newline := final |}) = Ok rs'
    /\ values rs' = values rs /\ addresses rs' = addresses rs.
Proof. exact comments_invisible. Qed.
Print Assumptions C04_comments_and_blank_lines.
Example C04_nonvacuous :
  doc_ok c_comma {| blank_lines := 1; items := [Record_ [Bare [lit "a"]]] ++ [Record_ [Bare [lit "b"]]];
                    final_newline := true |} = true.
Proof. reflexivity. Qed.

(** C05: inserting backslash-newline between any two parts p and q of a bare cell. *)
Theorem C05_line_continuation : forall cfg n a b cs1 cs2 ps1 ps2 p q final,
  let d c := {| blank_lines := n; items := a ++ Record_ (cs1 ++ Bare c :: cs2) :: b;
                final_newline := final |} in
  doc_ok (separator cfg) (d (ps1 ++ [p ++ q] ++ ps2)) = true ->
  exists rs rs',
    csvp_parse cfg (render (separator cfg) (d (ps1 ++ [p ++ q] ++ ps2))) = Ok rs
    /\ csvp_parse cfg (render (separator cfg) (d (ps1 ++ [p; q] ++ ps2))) = Ok rs'
    /\ values rs' = values rs /\ addresses rs' = addresses rs.
Proof. exact continuation_invisible. Qed.
Print Assumptions C05_line_continuation.
Example C05_nonvacuous :
  doc_ok c_comma {| blank_lines := 0;
    items := [] ++ Record_ ([Bare [lit "x"]] ++ Bare ([] ++ [lit "this " ++ lit "spans"] ++ []) :: []) :: [];
    final_newline := true |} = true
  /\ render_cell (Bare [lit "this "; lit "spans"]) = lit "this \" ++ [c_nl] ++ lit "spans".
Proof. split; reflexivity. Qed.

(** C06: every input yields a table or a located error; no panic, no divergence. *)
Theorem C06_total : forall (cfg : config) (inp : str),
  (exists rs, csvp_parse cfg inp = Ok rs)
  \/ (exists e i c, csvp_parse cfg inp = Err e /\ nth_error inp i = Some c
        /\ message e = InvalidTrailingCharacter c
        /\ line_number (err_position e) =
             true_line inp i + (if (c =? c_nl)%N then 1 else 0) + lines_above cfg
        /\ bad_input e = firstn 10 (skipn (S i) inp)).
Proof. exact csvp_total. Qed.
Print Assumptions C06_total.

(** C07 (partial): every field remembers, for every character of its untrimmed text, the line it
    stands on; the column is 0-based on the first line of the input and 1-based on later lines.
    Missing: a uniform column base, and alignment with the trimmed value (refuted below). *)
Theorem C07_positions_partial : forall (cfg : config) (inp : str) (rs : list (list field)),
  csvp_parse cfg inp = Ok rs ->
  forall r fs c f, nth_error rs r = Some fs -> nth_error fs c = Some f ->
  exists raw idxs,
    f_value f = trim raw /\ length raw = length idxs /\ length raw = length (f_positions f)
    /\ StronglySorted lt idxs
    /\ forall j i, nth_error idxs j = Some i ->
       exists ch, nth_error inp i = Some ch /\ nth_error raw j = Some ch /\
       position_for_offset f j = Some (
         if (ch =? c_nl)%N
         then {| line_number := S (true_line inp i) + lines_above cfg; line_offset := 0 |}
         else {| line_number := true_line inp i + lines_above cfg;
                 line_offset := true_column inp i + (if true_line inp i =? 0 then 0 else 1) |}).
Proof. exact csvp_positions. Qed.
Print Assumptions C07_positions_partial.

(** C07 refuted: 'b' stands in column 0 of line 1, but column 1 is recorded. *)
Theorem C07_column_refuted :
  exists inp rs f i, csvp_parse default_config inp = Ok rs /\ nth_error (concat rs) 1 = Some f
    /\ nth_error inp i = Some 98%N /\ f_value f = [98%N]
    /\ position_for_offset f 0 <>
       Some {| line_number := true_line inp i; line_offset := true_column inp i |}.
Proof.
  exists (lit "a" ++ [c_nl] ++ lit "b"). eexists. eexists. exists 2.
  split; [vm_compute; reflexivity|]. split; [vm_compute; reflexivity|]. split; [reflexivity|].
  split; [reflexivity|]. vm_compute. discriminate.
Qed.
Print Assumptions C07_column_refuted.
(** C07 refuted: in a quoted field with leading white space the positions are those of the
    untrimmed text, so offset 0 of the value "x" is the position of the blank before it. *)
Theorem C07_quoted_alignment_refuted :
  exists inp rs f, csvp_parse default_config inp = Ok rs /\ nth_error (concat rs) 0 = Some f
    /\ f_value f = lit "x" /\ nth_error inp 2 = Some 120%N
    /\ position_for_offset f 0 = Some {| line_number := 0; line_offset := 1 |}.
Proof.
  exists (lit """ x"""). eexists. eexists.
  split; [vm_compute; reflexivity|]. split; [vm_compute; reflexivity|].
  repeat split.
Qed.
Print Assumptions C07_quoted_alignment_refuted.
