(** * LexPlaces: every token is recorded at its line and, counted in bytes, at its column. *)
From Coq Require Import ZifyBool ZifyN.
From Verif Require Import Base BaseProofs Csvp CsvpSpec CsvpTotal Ast AstLexer SourceSpec CodeSectionSpec
  AstLexerProofs LexTiling ReportSpec ReportProofs.

Lemma byte_tail_snoc a c : byte_tail (a ++ [c]) = if (c =? c_nl)%N then 0 else byte_tail a + char_utf8_len c.
Proof.
  unfold byte_tail. rewrite rev_app_distr. cbn [rev app span].
  destruct (c =? c_nl)%N; cbn [negb]; [reflexivity|].
  destruct (span _ (rev a)) as [x y]. cbn [fst]. rewrite utf8_len_cons. lia.
Qed.
Lemma byte_tail_one_line t : forall a, one_line t = true -> byte_tail (a ++ t) = byte_tail a + utf8_len t.
Proof.
  induction t as [|c t IH]; intros a H; [rewrite app_nil_r; cbn; lia|].
  change (c :: t) with ([c] ++ t) in *. apply one_line_app in H as [H1 H2]. rewrite app_assoc, IH by exact H2.
  rewrite byte_tail_snoc. cbn in H1. destruct (c =? c_nl)%N; [discriminate|]. rewrite utf8_len_app. cbn. lia.
Qed.
Lemma byte_tail_ascii a : forallb is_ascii a = true -> byte_tail a = tail_len a.
Proof.
  intro H. unfold byte_tail, tail_len. destruct (span _ (rev a)) as [x y] eqn:E. cbn [fst].
  destruct (span_spec _ _ _ _ E) as [Er _]. apply utf8_len_ascii.
  assert (X : forallb is_ascii (rev a) = true).
  { apply forallb_forall. intros c Hc. apply in_rev in Hc. rewrite forallb_forall in H. auto. }
  rewrite Er, forallb_app in X. apply andb_prop in X as [X _]. exact X.
Qed.
Lemma plain_blanks_ascii s : forallb is_ascii s = true -> plain_blanks s = true.
Proof.
  intro H. unfold plain_blanks. apply forallb_forall. intros c Hc. rewrite forallb_forall in H. rewrite (H c Hc).
  apply orb_true_r.
Qed.

Definition place (s pre : str) (p : position) : Prop :=
  line_number p = nl_count pre /\ (plain_blanks s = true -> line_offset p = byte_tail pre).
Definition token_place (s : str) (t : token_match) (p : nat * str) : Prop :=
  tm_str t = snd p /\ place s (firstn (fst p) s) (tm_position t).

Lemma lex_places u s : forall fuel pre p off ln acc lx, lex_loop fuel u p off ln acc = Ok lx ->
  s = pre ++ p -> strings_closed InCode p = true -> no_fn_at_line_end p ->
  place s pre {| line_number := ln; line_offset := off |} ->
  exists new l, lx_tokens lx = rev acc ++ new /\ slices (length pre) p l /\ Forall2 (token_place s) new l.
Proof.
  induction fuel as [|fuel IH]; intros pre p off ln acc lx H Es Hc Hf Hpos; [discriminate|]. cbn [lex_loop] in H.
  destruct (span is_blank p) as [ws body] eqn:Hsp.
  destruct (span_spec _ _ _ _ Hsp) as [Ep [Hws Hb]].
  pose proof (forallb_blank_ws _ Hws) as Hws'. pose proof (blank_one_line _ Hws) as Hws1.
  assert (Hwq : forallb quiet ws = true).
  { rewrite forallb_forall. intros c Hin. rewrite forallb_forall in Hws. specialize (Hws c Hin).
    unfold is_blank in Hws. apply andb_prop in Hws as [Hws _]. apply andb_prop in Hws as [H1 H2]. apply blank_quiet; [exact H1|lia]. }
  destruct (first_match (matchers_ordered u) body) as [[[t m] rest]|] eqn:Hm.
  2:{ destruct (forallb is_ws p) eqn:Hp; [|discriminate]. inversion H; subst lx. exists [], [].
      rewrite app_nil_r. repeat split; auto. apply slices_blank. exact Hp. }
  destruct (first_match_split _ _ _ _ _ Hm) as [Ebody Hne].
  destruct m as [|c m]; [congruence|]. clear Hne.
  assert (Hcb : is_blank c = false) by (rewrite Ebody in Hb; exact Hb).
  assert (Hc' : strings_closed InCode body = true) by (rewrite Ep, closed_quiet in Hc; assumption).
  assert (Hf' : no_fn_at_line_end body) by (rewrite Ep in Hf; eapply no_fn_tail; exact Hf).
  destruct (match_closed _ _ _ _ _ Hm Hc' Hf') as [Hcr Hone].
  assert (Hfr : no_fn_at_line_end rest) by (rewrite Ebody in Hf'; eapply no_fn_tail; exact Hf').
  assert (Hes' : s = (pre ++ ws ++ c :: m) ++ rest) by (rewrite Es, Ep, Ebody, <- !app_assoc; reflexivity).
  rewrite Ebody in Hm. change ((c :: m) ++ rest) with (c :: m ++ rest) in Hm.
  assert (Hrest : forall acc' off' ln',
    (if forallb is_ws rest
     then Ok {| lx_tokens := rev acc'; lx_eof := {| line_number := ln'; line_offset := off' |} |}
     else lex_loop fuel u rest off' ln' acc') = Ok lx ->
    place s (pre ++ ws ++ c :: m) {| line_number := ln'; line_offset := off' |} ->
    exists new l, lx_tokens lx = rev acc' ++ new
    /\ slices (length pre + length ws + length (c :: m)) rest l /\ Forall2 (token_place s) new l).
  { intros acc' off' ln' E P. destruct (forallb is_ws rest) eqn:Hr.
    - inversion E; subst lx. exists [], []. rewrite app_nil_r. repeat split; auto. apply slices_blank. exact Hr.
    - destruct (IH _ _ _ _ _ _ E Hes' Hcr Hfr P) as [new [l [E1 [E2 E3]]]]. exists new, l. repeat split; auto.
      rewrite !app_length in E2. replace (length pre + length ws + length (c :: m)) with (length pre + (length ws + length (c :: m))) by lia.
      exact E2. }
  destruct Hpos as [Hln Hoff]. cbn [line_number line_offset] in Hln, Hoff.
  destruct (match_head _ _ _ _ _ _ Hm Hcb) as [[Ht Hcn] | [Hcw Hcn]].
  - subst t c. rewrite first_match_nl in Hm. inversion Hm as [[Em Er]]. subst m. simpl app in *.
    destruct (Hrest _ _ _ H) as [new [l [E1 [E2 E3]]]].
    { split; cbn [line_number line_offset].
      - rewrite !nl_count_app, (nl_count_one_line ws) by exact Hws1. change (nl_count [c_nl]) with 1. clear -Hln. lia.
      - intros _. rewrite app_assoc, byte_tail_snoc. reflexivity. }
    exists new, l. split; [exact E1|split; [|exact E3]].
    rewrite Ep, Ebody. apply slices_ws; [exact Hws'|]. simpl. apply sl_ws; [reflexivity|].
    cbn [length] in E2. rewrite Nat.add_1_r in E2. exact E2.
  - assert (Hnn : t <> TNewline) by (intros ->; apply newline_match in Hm; congruence).
    specialize (Hone Hnn).
    assert (Hone' : one_line (ws ++ c :: m) = true) by (apply one_line_app; auto).
    assert (Hnext : place s (pre ++ ws ++ c :: m) {| line_number := ln; line_offset := off + utf8_len (ws ++ c :: m) |}).
    { split; cbn [line_number line_offset].
      - rewrite nl_count_app, (nl_count_one_line _ Hone'). clear -Hln. lia.
      - intro A. rewrite byte_tail_one_line, (Hoff A) by exact Hone'. reflexivity. }
    assert (Hcase : t = TComment \/ (t <> TComment /\ t <> TNewline)) by (destruct t; auto; right; split; discriminate).
    destruct Hcase as [-> | [Hnc _]].
    + simpl in H. destruct (comment_match _ _ _ _ Hm) as [tx [Em [Htx Hr]]].
      inversion Em; subst c m. destruct (Hrest _ _ _ H Hnext) as [new [l [E1 [E2 E3]]]].
      exists new, l. split; [exact E1|split; [|exact E3]].
      rewrite Ep, Ebody. apply slices_ws; [exact Hws'|]. simpl. apply sl_comment; auto.
    + destruct (trim_piece c m Hcw) as [b [Em [Hbw Htn]]].
      set (tm := {| tm_token := t; tm_str := trim (ws ++ c :: m);
                    tm_position := {| line_number := ln; line_offset := off + length ws |} |}) in *.
      assert (H' : (if forallb is_ws rest
        then Ok {| lx_tokens := rev (tm :: acc); lx_eof := {| line_number := ln; line_offset := off + utf8_len (ws ++ c :: m) |} |}
        else lex_loop fuel u rest (off + utf8_len (ws ++ c :: m)) ln (tm :: acc)) = Ok lx)
        by (destruct t; try congruence; exact H).
      destruct (Hrest _ _ _ H' Hnext) as [new [l [E1 [E2 E3]]]].
      assert (Etm : tm_str tm = trim (c :: m)) by (simpl; apply trim_app_ws; exact Hws').
      exists (tm :: new), ((length pre + length ws, trim (c :: m)) :: l). split; [|split].
      * rewrite E1. simpl rev. rewrite <- app_assoc. reflexivity.
      * rewrite Ep, Ebody. apply slices_ws; [exact Hws'|]. rewrite Em at 1. rewrite <- app_assoc.
        apply sl_piece; [exact Htn|]. apply slices_ws; [exact Hbw|].
        pose proof (f_equal (@length N) Em) as X3. rewrite app_length in X3.
        replace (length pre + length ws + length (trim (c :: m)) + length b) with (length pre + length ws + length (c :: m)) by lia.
        exact E2.
      * constructor; [|exact E3]. split; [exact Etm|]. cbn [fst snd tm_position tm].
        replace (firstn (length pre + length ws) s) with (pre ++ ws).
        2:{ rewrite <- app_length, Hes', !app_assoc, <- !app_assoc. rewrite (app_assoc pre), firstn_app, Nat.sub_diag, firstn_all, firstn_O, app_nil_r.
            reflexivity. }
        split; cbn [line_number line_offset].
        -- rewrite nl_count_app, (nl_count_one_line ws) by exact Hws1. clear -Hln. lia.
        -- intro A. rewrite byte_tail_one_line, (Hoff A) by exact Hws1. f_equal.
           symmetry. apply utf8_len_ascii. apply forallb_forall. intros d Hd.
           unfold plain_blanks in A. rewrite forallb_forall in A.
           assert (In d s) by (rewrite Es, Ep; apply in_or_app; right; apply in_or_app; left; exact Hd). specialize (A d H0).
           rewrite forallb_forall in Hws'. rewrite (Hws' d Hd) in A. exact A.
Qed.

Lemma ast_lex_places u s lx : ast_lex u s = Ok lx -> strings_closed InCode s = true -> no_fn_at_line_end s ->
  exists l, slices (length s - length (formula_text s)) (formula_text s) l /\ Forall2 (token_place s) (lx_tokens lx) l.
Proof.
  intros H Hc Hf. unfold ast_lex in H. unfold formula_text. destruct (strip_prefix [c_eq] s) as [r|] eqn:E.
  - apply strip_prefix_spec in E. destruct (lex_places u s _ [c_eq] r _ _ _ _ H) as [new [l [E1 [E2 E3]]]]; auto.
    + rewrite E in Hc. exact Hc.
    + rewrite E in Hf. eapply no_fn_tail; exact Hf.
    + split; reflexivity.
    + exists l. rewrite E1. split; [|exact E3]. replace (length s - length r) with 1 by (rewrite E, app_length; cbn [length]; lia). exact E2.
  - destruct (lex_places u s _ [] s _ _ _ _ H) as [new [l [E1 [E2 E3]]]]; auto. { split; reflexivity. }
    exists l. rewrite E1, Nat.sub_diag. auto.
Qed.
