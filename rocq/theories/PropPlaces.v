(** * Property C50 for texts of several lines. *)
From Coq Require Import ZifyBool ZifyN.
From Verif Require Import Base BaseProofs Csvp CsvpSpec CsvpTotal Ast AstLexer AstParser CodeSectionSpec
  AstLexerProofs LexTiling ReportSpec ReportProofs LexPlaces PropFormula.

(** Every token is a piece of the text and is recorded on the line it stands on; in ASCII texts at the
    column it stands at, and in every text whose white space is ASCII at the byte at which it starts
    in its line. Missing: strings over several lines and [fn] at the end of a line, where the lines
    are wrong (C50_line_in_string_refuted, C67_fn_line_refuted). *)
Theorem C50_places_partial : forall u s lx,
  ast_lex u s = Ok lx -> strings_closed InCode s = true -> no_fn_at_line_end s ->
  exists l, slices (length s - length (formula_text s)) (formula_text s) l
    /\ Forall2 (fun t '(i, piece) => tm_str t = piece
         /\ line_number (tm_position t) = true_line s i
         /\ (forallb is_ascii s = true -> line_offset (tm_position t) = true_column s i)
         /\ (plain_blanks s = true -> line_offset (tm_position t) = byte_column s i)) (lx_tokens lx) l.
Proof.
  intros u s lx H Hc Hf. destruct (ast_lex_places u s lx H Hc Hf) as [l [H1 H2]]. exists l. split; [exact H1|].
  clear H1 H Hc Hf. induction H2 as [|t [i a] ts l [E [P1 P2]] _ IH]; constructor; auto.
  cbn [fst snd] in *. split; [exact E|]. split; [exact P1|]. split.
  - intro A. rewrite P2 by (apply plain_blanks_ascii; exact A). unfold true_column. fold (tail_len (firstn i s)).
    apply byte_tail_ascii. apply forallb_forall. intros c Hin. rewrite forallb_forall in A. apply A.
    rewrite <- (firstn_skipn i s), in_app_iff. auto.
  - exact P2.
Qed.
Print Assumptions C50_places_partial.
Example C50_places_nonvacuous :
  let s := lit "a := ""x # y""  # note" ++ [c_nl] ++ lit "fn f(b) """ ++ [233%N] ++ lit """ &  b" in
  exists lx, ast_lex (o_unicode ex_oracle) s = Ok lx /\ strings_closed InCode s = true /\ no_fn_at_line_end s
    /\ plain_blanks s = true
    /\ map (fun t => (tm_str t, line_number (tm_position t), line_offset (tm_position t))) (skipn 3 (lx_tokens lx))
       = [(lit "fn", 1, 0); (lit "f", 1, 3); (lit "(", 1, 4); (lit "b", 1, 5); (lit ")", 1, 6);
          ([c_dquote; 233%N; c_dquote], 1, 8); (lit "&", 1, 13); (lit "b", 1, 16)].
Proof.
  intro s. eexists. split; [vm_compute; reflexivity|]. split; [vm_compute; reflexivity|]. split.
  - intros a w b E Hw.
    assert (X : forall k, k < length s -> firstn 2 (skipn k s) = lit "fn" ->
       existsb (fun c => (c =? c_nl)%N) (fst (span is_ws (skipn (k + 2) s))) = false).
    { intros k Hk. do 40 (destruct k as [|k]; [vm_compute; intro Q; first [discriminate Q|reflexivity]|]).
      vm_compute in Hk. lia. }
    specialize (X (length a)). rewrite E in X.
    rewrite skipn_app, skipn_all, Nat.sub_diag in X. cbn [skipn app] in X.
    rewrite skipn_app, (skipn_all2 a), app_nil_l in X by lia.
    replace (length a + 2 - length a) with 2 in X by lia. cbn [lit skipn app] in X.
    assert (Y : span is_ws (w ++ c_nl :: b) = (w ++ c_nl :: fst (span is_ws b), snd (span is_ws b))).
    { clear -Hw. induction w as [|c w IH]; cbn [app span]; [|apply andb_prop in Hw as [H1 H2]; rewrite H1, IH by exact H2; reflexivity].
      change (is_ws c_nl) with true. destruct (span is_ws b). reflexivity. }
    change (skipn 2 (lit "fn" ++ w ++ c_nl :: b)) with (w ++ c_nl :: b) in X. rewrite Y in X. cbn [fst] in X.
    rewrite existsb_app in X. cbn [existsb] in X. change (c_nl =? c_nl)%N with true in X.
    rewrite orb_true_r in X. assert (true = false); [|discriminate]. apply X.
    + rewrite !app_length. cbn. lia.
    + reflexivity.
  - split; vm_compute; reflexivity.
Qed.
