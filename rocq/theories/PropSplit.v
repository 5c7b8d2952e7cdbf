(** * PropSplit: a code section in front of a spreadsheet leaves the spreadsheet as it is (C47). *)
From Verif Require Import Base BaseProofs Csvp CsvShift CsvpTotal PropCsvp SourceCode SourceSpec SourceCodeProofs Ast AstParser Options CellParser Sheet SameSpec SameProofs CellAlike FinalNewline PropCell PropSheet.
From Verif Require CellFewer.

(** the spreadsheet [s] with a line of dashes and these lines of code in front *)
Definition with_code (code : list str) (s : str) : str := unlines code ++ lit "---" ++ [c_nl] ++ s.
Definition no_dashes (lines : list str) : Prop := forallb (fun l => negb (is_separator_line l)) lines = true.
Definition code_lines (code : list str) : Prop := Forall file_line code /\ no_dashes code.
Definition a_spreadsheet (s : str) : Prop := no_cr s = true /\ no_dashes (lines_of s).

Lemma with_code_lines code s : Forall file_line code -> lines_of (with_code code s) = code ++ lit "---" :: lines_of s.
Proof.
  unfold with_code. induction 1 as [|l code [L1 L2] _ IH]; [apply (lines_of_cons_line (lit "---") s); reflexivity|].
  unfold unlines in *. cbn [map concat]. rewrite <- !app_assoc. cbn [app]. change (l ++ c_nl :: ?x) with (l ++ [c_nl] ++ x). rewrite lines_of_cons_line by assumption. f_equal. exact IH.
Qed.
Lemma with_code_split code s : code_lines code -> code_section (source_code_new (with_code code s)) = Some (join [c_nl] code) /\ csv_section (source_code_new (with_code code s)) = join [c_nl] (lines_of s).
Proof. intros [C1 C2]. destruct (split_found _ _ _ _ (with_code_lines code s C1) C2 eq_refl) as [A [B _]]. auto. Qed.
Lemma alone s : a_spreadsheet s -> code_section (source_code_new s) = None /\ csv_section (source_code_new s) = s /\ length_of_code_section (source_code_new s) = 0.
Proof. intros [_ H]. apply split_not_found. exact H. Qed.
Lemma load_alone co s p : a_spreadsheet s -> load_source co s = Ok p <-> sheet_parse co (source_code_new s) = Ok (pr_sheet p) /\ pr_scope p = empty_scope /\ pr_required p = [].
Proof.
  intro A. destruct (alone s A) as [H _]. unfold load_source. cbv zeta. rewrite H. cbn [bind]. destruct (sheet_parse co (source_code_new s)) as [sh| | |]; cbn [bind]; split; intro Q; try discriminate Q; try (destruct Q as [Q _]; discriminate Q).
  - injection Q as <-. auto.
  - destruct Q as [Q [<- <-]]. injection Q as ->. destruct p; reflexivity.
Qed.
Lemma load_with co code s sc req p : code_lines code -> code_section_parse (co_oracle co) (join [c_nl] code) = Ok (sc, req) ->
  load_source co (with_code code s) = Ok p <-> sheet_parse co (source_code_new (with_code code s)) = Ok (pr_sheet p) /\ pr_scope p = sc /\ pr_required p = req.
Proof.
  intros C P. destruct (with_code_split code s C) as [H _]. unfold load_source. cbv zeta. rewrite H, P. cbn [bind]. destruct (sheet_parse co (source_code_new (with_code code s))) as [sh| | |]; cbn [bind]; split; intro Q; try discriminate Q; try (destruct Q as [Q _]; discriminate Q).
  - injection Q as <-. auto.
  - destruct Q as [Q [<- <-]]. injection Q as ->. destruct p; reflexivity.
Qed.
(** C47 (partial): if the spreadsheet does not end in a newline, a code section that can be read and a line of dashes in front of it change
    nothing: the one is accepted exactly if the other is, and the cells, rows, options and names are the same. *)
Theorem C47_any_code_section_partial : forall co code s sc req, code_lines code -> a_spreadsheet s -> s = join [c_nl] (lines_of s) ->
  code_section_parse (co_oracle co) (join [c_nl] code) = Ok (sc, req) ->
  (forall p, load_source co s = Ok p ->
     exists p', load_source co (with_code code s) = Ok p' /\ pr_scope p' = sc /\ pr_required p' = req /\ alike_sheet (pr_sheet p) (pr_sheet p'))
  /\ (forall p', load_source co (with_code code s) = Ok p' -> exists p, load_source co s = Ok p /\ alike_sheet (pr_sheet p') (pr_sheet p)).
Proof.
  intros co code s sc req C A J P. destruct (with_code_split code s C) as [_ S2]. destruct (alone s A) as [_ [S1 _]]. split.
  - intros p Ld. apply (load_alone co s p A) in Ld as [Sp _]. destruct (sheet_parse_alike co (source_code_new s) (source_code_new (with_code code s)) _ ltac:(rewrite S1, S2; exact J) Sp) as [sh [Q Al]].
    exists {| pr_scope := sc; pr_sheet := sh; pr_required := req |}. split; [apply (load_with co code s sc req _ C P); auto|]. auto.
  - intros p' Ld. apply (load_with co code s sc req p' C P) in Ld as [Sp _]. destruct (sheet_parse_alike co (source_code_new (with_code code s)) (source_code_new s) _ ltac:(rewrite S1, S2; symmetry; exact J) Sp) as [sh [Q Al]].
    exists {| pr_scope := empty_scope; pr_sheet := sh; pr_required := [] |}. split; [apply (load_alone co s _ A); auto|exact Al].
Qed.
Print Assumptions C47_any_code_section_partial.
(** C47 (partial): if it does end in a newline, after a visible character other than a comma or a backslash, the spreadsheet is read the same
    whenever the file with the code section is accepted. *)
Theorem C47_final_newline_partial : forall co code s p', code_lines code -> a_spreadsheet (s ++ [c_nl]) -> ends_visibly c_comma s ->
  load_source co (with_code code (s ++ [c_nl])) = Ok p' -> exists p, load_source co (s ++ [c_nl]) = Ok p /\ alike_sheet (pr_sheet p') (pr_sheet p).
Proof.
  intros co code s p' C A V Ld. destruct (with_code_split code (s ++ [c_nl]) C) as [S1 S2]. destruct (alone _ A) as [_ [S3 S4]].
  assert (J : join [c_nl] (lines_of (s ++ [c_nl])) = s).
  { destruct (text_decompose s) as [ls [l [H1 [H2 H3]]]]. assert (U : s ++ [c_nl] = unlines (ls ++ [l])).
    { rewrite H1. unfold unlines. rewrite map_app, concat_app. cbn [map concat]. rewrite app_nil_r, <- app_assoc. reflexivity. }
    assert (Ok1 : forallb line_ok (ls ++ [l]) = true).
    { pose proof (proj1 A) as N. rewrite U in N. apply no_cr_unlines in N. rewrite forallb_forall in *. intros x Hx. unfold line_ok. rewrite (N x Hx), andb_true_r. apply in_app_or in Hx as [Hx|[<-|[]]]; [apply H2; exact Hx|exact H3]. }
    rewrite U, (lines_of_unlines _ Ok1). assert (Ne : ls ++ [l] <> []) by (destruct ls; discriminate). pose proof (join_unlines _ Ne) as Q. rewrite <- U in Q. apply app_inj_tail in Q as [Q _]. exact Q. }
  assert (Sp : sheet_parse co (source_code_new (with_code code (s ++ [c_nl]))) = Ok (pr_sheet p')).
  { unfold load_source in Ld. cbv zeta in Ld. rewrite S1 in Ld. destruct (code_section_parse _ _) as [[sc req]| | |]; cbn [bind] in Ld; try discriminate Ld. destruct (sheet_parse co _); cbn [bind] in Ld; try discriminate Ld. injection Ld as <-. reflexivity. }
  clear Ld. unfold sheet_parse in Sp. rewrite S2, J, csvp_shift in Sp.
  set (cfg0 := {| separator := c_comma; lines_above := 0 |}) in *. pose proof (csvp_final_newline cfg0 eq_refl s V) as R.
  destruct (csvp_parse cfg0 s) as [rs| | |]; cbn [shift_out bind] in Sp; try discriminate Sp.
  assert (Q : exists rs', csvp_parse cfg0 (s ++ [c_nl]) = Ok rs' /\ Forall2 (Forall2 CellFewer.fewer_places) rs rs').
  { destruct (C06_total cfg0 (s ++ [c_nl])) as [[rs' T]|[e [i [c [T _]]]]]; rewrite T in *; cbn [out_rel] in R; [eauto|contradiction]. }
  destruct Q as [rs' [T F]].
  destruct (parse_rows co (map (map (shift_field _)) rs)) as [rows| | |] eqn:E1; cbn [bind] in Sp; try discriminate Sp. injection Sp as Sp.
  assert (F' : Forall2 (Forall2 CellFewer.fewer_places) (map (map (shift_field (length_of_code_section (source_code_new (with_code code (s ++ [c_nl])))))) rs) rs').
  { clear -F. induction F as [|fs fs' rs rs' Hf _ IH]; cbn [map]; constructor; [|exact IH]. clear -Hf. induction Hf as [|f f' fs fs' H _ IH]; cbn [map]; constructor; [|exact IH].
    destruct H as [H1 [H2 H3]]. unfold CellFewer.fewer_places, shift_field. cbn [f_address f_value f_positions]. rewrite map_length. auto. }
  destruct (CellFewer.parse_rows_fewer co _ _ _ F' E1) as [rows' [P' Al]].
  exists {| pr_scope := empty_scope; pr_sheet := {| sheet_rows := rows'; fills_expanded := false |}; pr_required := [] |}. split.
  - apply (load_alone co _ _ A). cbn [pr_sheet pr_scope pr_required]. split; [|auto]. unfold sheet_parse. rewrite S3, S4. fold cfg0. rewrite T. cbn [bind]. rewrite P'. reflexivity.
  - rewrite <- Sp. split; [reflexivity|exact Al].
Qed.
Print Assumptions C47_final_newline_partial.

(** ** Examples *)
Definition ex_table_text : str := lit "[[var=x]]1,""a, b"",=x * rate" ++ [c_nl] ++ lit "![[fill=2]]2,[[text=bold]]3" ++ [c_nl] ++ lit "# a comment" ++ [c_nl] ++ lit "end,=y".
Definition ex_code_lines : list str := [lit "rate := 3"; []; lit "fn twice(a) 2 * a # not used"].
Example C47_nonvacuous : code_lines ex_code_lines /\ a_spreadsheet ex_table_text /\ a_spreadsheet (ex_table_text ++ [c_nl]) /\ ex_table_text = join [c_nl] (lines_of ex_table_text) /\ ends_visibly c_comma ex_table_text
  /\ (exists sc req, code_section_parse (co_oracle ex_co) (join [c_nl] ex_code_lines) = Ok (sc, req))
  /\ (exists p, load_source ex_co ex_table_text = Ok p /\ length (sheet_rows (pr_sheet p)) = 3)
  /\ (exists p, load_source ex_co (with_code ex_code_lines (ex_table_text ++ [c_nl])) = Ok p /\ length (sheet_rows (pr_sheet p)) = 3).
Proof.
  split; [split; [repeat constructor|vm_compute; reflexivity]|]. split; [split; vm_compute; reflexivity|]. split; [split; vm_compute; reflexivity|]. split; [vm_compute; reflexivity|].
  split; [vm_compute; repeat split; discriminate|]. split; [|split].
  - do 2 eexists. vm_compute. reflexivity.
  - eexists. split; [vm_compute; reflexivity|reflexivity].
  - eexists. split; [vm_compute; reflexivity|reflexivity].
Qed.
