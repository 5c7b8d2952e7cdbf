(** * Properties C08, C09, C47: splitting the source, showing it in errors. *)
From Verif Require Import Base Csvp SourceCode SourceSpec SourceCodeProofs.

Definition ex_src : str :=
  lit "foo := 2" ++ [c_nl] ++ lit "  ---  " ++ [c_nl] ++ lit "a,b" ++ [c_nl] ++ lit "---" ++ [c_nl].

(** C08: which line separates: optional white space, three dashes, optional white space. *)
Theorem C08_separator_line : forall l, is_separator_line l = true <->
  exists a b, l = a ++ lit "---" ++ b /\ forallb is_ws a = true /\ forallb is_ws b = true.
Proof. exact separator_line_spec. Qed.
Print Assumptions C08_separator_line.

(** C08: for every text, the code section is what precedes the first separator line, the
    spreadsheet what follows it; without one everything is the spreadsheet. *)
Theorem C08_split : forall input,
  let sc := source_code_new input in
  match code_section sc with
  | None => csv_section sc = input /\ length_of_code_section sc = 0
            /\ forallb (fun l => negb (is_separator_line l)) (lines_of input) = true
  | Some code =>
      exists code_lines sep csv_lines,
        lines_of input = code_lines ++ sep :: csv_lines
        /\ forallb (fun l => negb (is_separator_line l)) code_lines = true
        /\ is_separator_line sep = true
        /\ code = join [c_nl] code_lines /\ csv_section sc = join [c_nl] csv_lines
        /\ length_of_code_section sc = S (length code_lines)
  end.
Proof. exact split_complete. Qed.
Print Assumptions C08_split.
Example C08_nonvacuous :
  code_section (source_code_new ex_src) = Some (lit "foo := 2")
  /\ csv_section (source_code_new ex_src) = lit "a,b" ++ [c_nl] ++ lit "---"
  /\ length_of_code_section (source_code_new ex_src) = 2.
Proof. repeat split. Qed.

(** C08: nothing is lost: gluing code section, separator line and spreadsheet gives back the file,
    up to its final newline (texts with carriage returns are normalised by the split). *)
Theorem C08_reassemble : forall input code, no_cr input = true ->
  code_section (source_code_new input) = Some code ->
  exists sep, is_separator_line sep = true /\
  let body := (match length_of_code_section (source_code_new input) with 1 => [] | _ => code ++ [c_nl] end)
       ++ sep ++ (match length_of_csv_section (source_code_new input) with 0 => []
                  | _ => [c_nl] ++ csv_section (source_code_new input) end) in
  input = body \/ input = body ++ [c_nl].
Proof. exact split_reassemble. Qed.
Print Assumptions C08_reassemble.
Example C08_reassemble_nonvacuous : no_cr ex_src = true.
Proof. reflexivity. Qed.

(** C09: the excerpt, for every source and position: empty for a line outside the file; otherwise
    up to three lines before, the line itself, the caret, up to three lines after, consecutively
    numbered from 1. In particular it never panics. *)
Theorem C09_highlight : forall sc pos,
  let ls := lines_of (original sc) in
  let n := line_number pos in
  let w := length (dec (N.of_nat (n + 3))) in
  highlight_line sc pos =
  if length ls <=? n then Ok []
  else Ok (excerpt w ls (n - 3) (n - (n - 3))
           ++ [numbered w n (nth n ls [])]
           ++ [[c_space] ++ pad_right w [c_space] ++ [c_colon; c_space]
               ++ repeat c_minus (line_offset pos) ++ [c_caret]]
           ++ excerpt w ls (S n) (Nat.min 3 (length ls - S n))).
Proof. exact highlight_shape. Qed.
Print Assumptions C09_highlight.
Example C09_nonvacuous :
  highlight_line (source_code_new ex_src) {| line_number := 2; line_offset := 1 |} =
  Ok [lit " 1: foo := 2"; lit " 2:   ---  "; lit " 3: a,b"; lit "  : -^"; lit " 4: ---"].
Proof. vm_compute. reflexivity. Qed.

(** C47 (partial): putting an empty code section in front of a spreadsheet text leaves the
    spreadsheet section as it was, up to its final newline. *)
Theorem C47_empty_code_section_partial : forall s, no_cr s = true ->
  code_section (source_code_new (lit "---" ++ [c_nl] ++ s)) = Some [] /\
  (s = csv_section (source_code_new (lit "---" ++ [c_nl] ++ s))
   \/ s = csv_section (source_code_new (lit "---" ++ [c_nl] ++ s)) ++ [c_nl]).
Proof. exact empty_code_section. Qed.
Print Assumptions C47_empty_code_section_partial.
(** C47 refuted: the lost final newline can lose a cell. *)
Theorem C47_code_section_loses_cell_refuted : exists s rs rs',
  csvp_parse default_config (csv_section (source_code_new s)) = Ok rs
  /\ csvp_parse default_config (csv_section (source_code_new (lit "---" ++ [c_nl] ++ s))) = Ok rs'
  /\ values rs = [[lit "a"; []]] /\ values rs' = [[lit "a"]].
Proof. exists (lit "a," ++ [c_nl]). eexists. eexists. repeat split; vm_compute; reflexivity. Qed.
Print Assumptions C47_code_section_loses_cell_refuted.
