(** * LexTiling: the lexer's tokens are slices of the input, at the recorded positions. *)
From Coq Require Import ZifyBool ZifyN.
From Verif Require Import Base BaseProofs Csvp Ast AstLexer AstParser FormulaSpec CodeSectionSpec
  AstLexerProofs.

Lemma slices_ws ws : forall pos s l, forallb is_ws ws = true -> slices (pos + length ws) s l ->
  slices pos (ws ++ s) l.
Proof.
  induction ws as [|c ws IH]; simpl; intros pos s l H Hs; [rewrite Nat.add_0_r in Hs; exact Hs|].
  apply andb_prop in H as [Hc H]. apply sl_ws; [exact Hc|]. apply IH; [exact H|].
  replace (S pos + length ws) with (pos + S (length ws)) by lia. exact Hs.
Qed.
Lemma slices_blank s : forall pos, forallb is_ws s = true -> slices pos s [].
Proof.
  induction s as [|c s IH]; simpl; intros pos H; [constructor|].
  apply andb_prop in H as [Hc H]. apply sl_ws; auto.
Qed.

Lemma trim_piece c m : is_ws c = false -> exists b, c :: m = trim (c :: m) ++ b
  /\ forallb is_ws b = true /\ trim (c :: m) <> [].
Proof.
  intro Hc. unfold trim. rewrite trim_start_nonws by exact Hc.
  destruct (trim_end_prefix (c :: m)) as [b [E Hb]]. exists b. repeat split; auto.
  intro X. rewrite X in E. simpl in E. rewrite <- E in Hb. simpl in Hb. rewrite Hc in Hb. discriminate.
Qed.

Lemma comment_match u s m rest : first_match (matchers_ordered u) s = Some (TComment, m, rest) ->
  exists t, m = c_hash :: t /\ forallb (fun c => negb (c =? c_nl)%N) t = true
            /\ (rest = [] \/ exists r, rest = c_nl :: r).
Proof.
  intro H.
  assert (Hm : m_comment s = Some (m, rest)).
  { unfold matchers_ordered in H. cbn [first_match] in H.
    destruct (m_newline s) as [[? ?]|]; [discriminate|].
    destruct (m_comment s) as [[? ?]|]; [inversion H; reflexivity|].
    repeat match type of H with
    | (match ?x with Some _ => _ | None => _ end) = _ => destruct x as [[? ?]|]
    end; discriminate. }
  unfold m_comment in Hm. destruct s as [|c s]; [discriminate|].
  destruct (N.eqb_spec c c_hash); [|discriminate]. subst c.
  destruct (span _ s) as [a b] eqn:E. apply span_spec in E as [-> [Ha Hb]].
  inversion Hm; subst. exists a. repeat split; auto.
  destruct rest as [|d r]; [auto|]. right. exists r. f_equal. apply negb_false_iff in Hb. lia.
Qed.

Lemma newline_match u c s m rest : first_match (matchers_ordered u) (c :: s) = Some (TNewline, m, rest) ->
  c = c_nl.
Proof.
  intro H. apply first_match_In in H as [f [Hin Hf]].
  unfold matchers_ordered in Hin. simpl in Hin.
  repeat (destruct Hin as [E|Hin]; [try discriminate E; inversion E; subst f|]); try contradiction.
  unfold m_newline, m_lit in Hf. destruct (strip_prefix [c_nl] (c :: s)) eqn:E2; [|discriminate].
  apply strip_prefix_spec in E2. inversion E2. reflexivity.
Qed.

Lemma match_head u c body t m rest :
  first_match (matchers_ordered u) (c :: body) = Some (t, m, rest) -> is_blank c = false ->
  (t = TNewline /\ c = c_nl) \/ (is_ws c = false /\ c <> c_nl).
Proof.
  intros H Hb. destruct (is_ws c) eqn:Hw.
  - destruct (N.eqb_spec c c_nl) as [->|Hn].
    + rewrite first_match_nl in H. inversion H. auto.
    + rewrite first_match_ws in H by assumption. discriminate.
  - right. split; [reflexivity|]. intros ->. discriminate.
Qed.

Lemma ascii_line_utf8 s : ascii_line s = true -> utf8_len s = length s.
Proof.
  unfold ascii_line, utf8_len. induction s as [|c s IH]; simpl; intro H; [reflexivity|].
  apply andb_prop in H as [H1 H2]. apply andb_prop in H1 as [H1 _]. unfold is_ascii in H1.
  unfold char_utf8_len at 1. rewrite H1. rewrite IH by exact H2. reflexivity.
Qed.
Lemma ascii_line_app a b : ascii_line (a ++ b) = true -> ascii_line a = true /\ ascii_line b = true.
Proof. unfold ascii_line. rewrite forallb_app. apply andb_prop. Qed.

Definition at_index (t : token_match) (p : nat * str) : Prop :=
  tm_str t = snd p /\ tm_position t = {| line_number := 0; line_offset := fst p |}.

Theorem lex_slices u : forall fuel p off ln acc lx, lex_loop fuel u p off ln acc = Ok lx ->
  forall pos, exists new l, lx_tokens lx = rev acc ++ new /\ map tm_str new = map snd l
    /\ slices pos p l
    /\ (ascii_line p = true -> off = pos -> ln = 0 -> Forall2 at_index new l).
Proof.
  induction fuel as [|fuel IH]; intros p off ln acc lx H pos; [discriminate|]. cbn [lex_loop] in H.
  destruct (span is_blank p) as [ws body] eqn:Hsp.
  destruct (span_spec _ _ _ _ Hsp) as [Ep [Hws Hb]].
  pose proof (forallb_blank_ws _ Hws) as Hws'.
  destruct (first_match (matchers_ordered u) body) as [[[t m] rest]|] eqn:Hm.
  2:{ destruct (forallb is_ws p) eqn:Hp; [|discriminate]. inversion H; subst lx. exists [], [].
      rewrite app_nil_r. repeat split; auto. apply slices_blank. exact Hp. }
  destruct (first_match_split _ _ _ _ _ Hm) as [Ebody Hne].
  destruct m as [|c m]; [congruence|]. clear Hne.
  assert (Hc : is_blank c = false) by (rewrite Ebody in Hb; exact Hb).
  rewrite Ebody in Hm. change ((c :: m) ++ rest) with (c :: m ++ rest) in Hm.
  (* the part of the statement about the rest *)
  assert (Hrest : forall acc' off' ln',
    (if forallb is_ws rest
     then Ok {| lx_tokens := rev acc'; lx_eof := {| line_number := ln'; line_offset := off' |} |}
     else lex_loop fuel u rest off' ln' acc') = Ok lx -> forall pos',
    exists new l, lx_tokens lx = rev acc' ++ new /\ map tm_str new = map snd l
    /\ slices pos' rest l /\ (ascii_line rest = true -> off' = pos' -> ln' = 0 -> Forall2 at_index new l)).
  { intros acc' off' ln' E pos'. destruct (forallb is_ws rest) eqn:Hr.
    - inversion E; subst lx. exists [], []. rewrite app_nil_r. repeat split; auto. apply slices_blank. exact Hr.
    - apply (IH _ _ _ _ _ E). }
  assert (Hlen : ascii_line p = true -> utf8_len (ws ++ c :: m) = length ws + length (c :: m) /\ ascii_line rest = true
                 /\ c <> c_nl).
  { intro Ha. rewrite Ep, Ebody in Ha.
    replace (ws ++ (c :: m) ++ rest) with ((ws ++ c :: m) ++ rest) in Ha by (rewrite <- app_assoc; reflexivity).
    apply ascii_line_app in Ha as [Ha Hr]. rewrite ascii_line_utf8 by exact Ha. rewrite app_length.
    repeat split; auto. apply ascii_line_app in Ha as [_ Ha]. unfold ascii_line in Ha. simpl in Ha. lia. }
  destruct (match_head _ _ _ _ _ _ Hm Hc) as [[Ht Hcn] | [Hcw Hcn]].
  - (* newline *)
    subst t c. rewrite first_match_nl in Hm. inversion Hm as [[Em Er]]. subst m. simpl app in *.
    destruct (Hrest _ _ _ H (S (pos + length ws))) as [new [l [E1 [E2 [E3 _]]]]].
    exists new, l. split; [exact E1|split; [exact E2|split]].
    + rewrite Ep, Ebody. apply slices_ws; [exact Hws'|]. simpl. apply sl_ws; [reflexivity|exact E3].
    + intro Ha. destruct (Hlen Ha) as [_ [_ X]]. congruence.
  - (* comments and tokens *)
    assert (Hcase : t = TComment \/ (t <> TComment /\ t <> TNewline)).
    { destruct t; auto; try (right; split; discriminate).
      exfalso. apply newline_match in Hm. congruence. }
    destruct Hcase as [-> | [Hnc Hnn]].
    + simpl in H. destruct (comment_match _ _ _ _ Hm) as [tx [Em [Htx Hr]]].
      inversion Em; subst c m.
      destruct (Hrest _ _ _ H (pos + length ws + S (length tx))) as [new [l [E1 [E2 [E3 E4]]]]].
      exists new, l. split; [exact E1|split; [exact E2|split]].
      * rewrite Ep, Ebody. apply slices_ws; [exact Hws'|]. simpl. apply sl_comment; auto.
      * intros Ha Ho Hl. destruct (Hlen Ha) as [X1 [X2 _]]. apply E4; auto. rewrite X1. simpl. lia.
    + destruct (trim_piece c m Hcw) as [b [Em [Hbw Htn]]].
      set (tm := {| tm_token := t; tm_str := trim (ws ++ c :: m);
                    tm_position := {| line_number := ln; line_offset := off + length ws |} |}) in *.
      assert (H' : (if forallb is_ws rest
        then Ok {| lx_tokens := rev (tm :: acc); lx_eof := {| line_number := ln; line_offset := off + utf8_len (ws ++ c :: m) |} |}
        else lex_loop fuel u rest (off + utf8_len (ws ++ c :: m)) ln (tm :: acc)) = Ok lx)
        by (destruct t; try congruence; exact H).
      destruct (Hrest _ _ _ H' (pos + length ws + length (trim (c :: m)) + length b)) as [new [l [E1 [E2 [E3 E4]]]]].
      assert (Etm : tm_str tm = trim (c :: m)) by (simpl; apply trim_app_ws; exact Hws').
      exists (tm :: new), ((pos + length ws, trim (c :: m)) :: l). split; [|split; [|split]].
      * rewrite E1. simpl rev. rewrite <- app_assoc. reflexivity.
      * cbn [map snd]. rewrite Etm, E2. reflexivity.
      * rewrite Ep, Ebody. apply slices_ws; [exact Hws'|]. rewrite Em at 1. rewrite <- app_assoc.
        apply sl_piece; [exact Htn|]. apply slices_ws; [exact Hbw|exact E3].
      * intros Ha Ho Hl. destruct (Hlen Ha) as [X1 [X2 _]]. constructor.
        -- split; [exact Etm|]. simpl. subst. reflexivity.
        -- apply E4; auto. pose proof (f_equal (@length N) Em) as X3. rewrite app_length in X3. lia.
Qed.
