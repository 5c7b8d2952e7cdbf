(** * ReportProofs: where the lexer and parser locate errors. *)
From Coq Require Import ZifyBool ZifyN Sorting.Sorted.
From Verif Require Import Base BaseProofs Csvp CsvpSpec CsvpTotal Ast AstLexer AstParser SourceCode SourceSpec
  SourceCodeProofs CodeSectionSpec AstLexerProofs LexTiling ReportSpec.

(** ** Lines and columns of a prefix *)
Lemma nl_count_app a b : nl_count (a ++ b) = nl_count a + nl_count b.
Proof. unfold nl_count. rewrite filter_app, app_length. reflexivity. Qed.
Lemma nl_count_one_line t : one_line t = true -> nl_count t = 0.
Proof.
  unfold one_line, nl_count. induction t as [|c t IH]; simpl; [reflexivity|]. intro H. apply andb_prop in H as [Hc H].
  destruct (c =? c_nl)%N; [discriminate|]. auto.
Qed.
Lemma tail_len_one_line t : forall a, one_line t = true -> tail_len (a ++ t) = tail_len a + length t.
Proof.
  unfold one_line. induction t as [|c t IH]; intros a H; [rewrite app_nil_r; simpl; lia|].
  simpl in H. apply andb_prop in H as [Hc H].
  replace (a ++ c :: t) with ((a ++ [c]) ++ t) by (rewrite <- app_assoc; reflexivity).
  rewrite IH, tail_len_snoc by exact H. destruct (c =? c_nl)%N; [discriminate|]. simpl. lia.
Qed.
Lemma one_line_app a b : one_line (a ++ b) = true <-> one_line a = true /\ one_line b = true.
Proof. unfold one_line. rewrite forallb_app. apply andb_true_iff. Qed.
Lemma blank_one_line ws : forallb is_blank ws = true -> one_line ws = true.
Proof.
  unfold one_line. induction ws as [|c ws IH]; simpl; [auto|]. intro H. apply andb_prop in H as [Hc H].
  rewrite IH by exact H. unfold is_blank in Hc. lia.
Qed.

(** ** Scanning for open strings, and the lexer *)
Definition quiet (c : char) : bool :=
  negb (c =? c_nl)%N && negb (c =? c_dquote)%N && negb (c =? c_hash)%N.
Lemma closed_quiet m : forall r, forallb quiet m = true -> strings_closed InCode (m ++ r) = strings_closed InCode r.
Proof.
  induction m as [|c m IH]; intros r H; [reflexivity|]. simpl in H. apply andb_prop in H as [Hc H].
  cbn [app strings_closed]. unfold quiet in Hc.
  replace (c =? c_dquote)%N with false by lia. replace (c =? c_hash)%N with false by lia. auto.
Qed.
Lemma quiet_one_line m : forallb quiet m = true -> one_line m = true.
Proof.
  unfold one_line. induction m as [|c m IH]; simpl; [auto|]. intro H. apply andb_prop in H as [Hc H].
  rewrite IH by exact H. unfold quiet in Hc. lia.
Qed.
Lemma blank_quiet c : is_ws c = true -> (c =? c_nl)%N = false -> quiet c = true.
Proof.
  intros Hw Hn. unfold quiet. rewrite Hn.
  destruct (N.eqb_spec c c_dquote); [subst; discriminate|]. destruct (N.eqb_spec c c_hash); [subst; discriminate|]. reflexivity.
Qed.
Lemma closed_comment t : forall r, one_line t = true -> strings_closed InComment (t ++ r) = strings_closed InComment r.
Proof.
  induction t as [|c t IH]; intros r H; [reflexivity|]. unfold one_line in *. simpl in H. apply andb_prop in H as [Hc H].
  cbn [app strings_closed]. destruct (c =? c_nl)%N; [discriminate|]. auto.
Qed.
Lemma dq_loop_closed : forall n s acc last a r, length s <= n ->
  m_dq_loop s acc last = Some (a, r) -> strings_closed InString s = true ->
  one_line acc = true ->
  (forall a0 r0, last = Some (a0, r0) -> one_line a0 = true /\ strings_closed InCode r0 = true) ->
  one_line a = true /\ strings_closed InCode r = true.
Proof.
  assert (Hrev : forall x, one_line x = true -> one_line (rev x) = true).
  { intros x H. unfold one_line in *. rewrite forallb_forall in *. intros y Hy. apply H. apply in_rev. exact Hy. }
  induction n as [|n IH]; intros s acc last a r Hn H Hc Ha Hl.
  { destruct s; [|simpl in Hn; lia]. simpl in H. apply Hl. exact H. }
  destruct s as [|c s]; [apply Hl; exact H|]. simpl in Hn. cbn [m_dq_loop] in H. cbn [strings_closed] in Hc.
  destruct (N.eqb_spec c c_nl) as [->|Hnl]; [discriminate|].
  assert (Hca : one_line (c :: acc) = true) by (unfold one_line in *; simpl; rewrite Ha; lia).
  destruct (N.eqb_spec c c_dquote) as [->|Hq].
  - destruct s as [|c' s'].
    + inversion H; subst. split; [exact (Hrev _ Hca)|exact Hc].
    + destruct (N.eqb_spec c' c_dquote) as [->|Hq'].
      * cbn [strings_closed] in Hc. change (c_dquote =? c_dquote)%N with true in Hc. cbv iota in Hc.
        eapply IH; [|exact H|exact Hc| |].
        -- simpl in Hn. lia.
        -- unfold one_line in *. simpl in *. exact Ha.
        -- intros a0 r0 E. inversion E; subst. split; [apply (Hrev _ Hca)|].
           cbn [strings_closed]. change (c_dquote =? c_dquote)%N with true. exact Hc.
      * inversion H; subst. split; [exact (Hrev _ Hca)|exact Hc].
  - eapply IH; [|exact H|exact Hc|exact Hca|exact Hl]. lia.
Qed.

Definition word_quiet (f : char -> bool) : Prop := forall c, f c = true -> quiet c = true.
Lemma forallb_quiet f m : word_quiet f -> forallb f m = true -> forallb quiet m = true.
Proof. intros Hf. rewrite !forallb_forall. auto. Qed.
Lemma digit_quiet u : word_quiet (is_digit u).
Proof.
  intros c H. unfold quiet. destruct (N.eqb_spec c c_nl); [subst; discriminate|].
  destruct (N.eqb_spec c c_dquote); [subst; discriminate|]. destruct (N.eqb_spec c c_hash); [subst; discriminate|]. reflexivity.
Qed.
Lemma ref_quiet u : word_quiet (ref_char u).
Proof.
  intros c H. unfold quiet. destruct (N.eqb_spec c c_nl); [subst; discriminate|].
  destruct (N.eqb_spec c c_dquote); [subst; discriminate|]. destruct (N.eqb_spec c c_hash); [subst; discriminate|]. reflexivity.
Qed.
Lemma lit_quiet p s m r : forallb quiet p = true -> m_lit p s = Some (m, r) -> forallb quiet m = true.
Proof. intros Hp. unfold m_lit. destruct (strip_prefix p s); [|discriminate]. intro H; inversion H; subst. exact Hp. Qed.
Lemma alt_quiet ps s m r : forallb (forallb quiet) ps = true -> m_alt ps s = Some (m, r) -> forallb quiet m = true.
Proof.
  induction ps as [|p ps IH]; cbn [m_alt forallb]; [discriminate|]. intros Hp. apply andb_prop in Hp as [H1 H2].
  destruct (m_lit p s) as [[a b]|] eqn:E; [|auto]. intro H; inversion H; subst. eapply lit_quiet; eauto.
Qed.

Lemma no_fn_tail a s : no_fn_at_line_end (a ++ s) -> no_fn_at_line_end s.
Proof. intros H x w b E. apply (H (a ++ x) w b). rewrite E, <- app_assoc. reflexivity. Qed.

(** a match leaves the scan outside strings, and spans no line, unless it is the newline itself *)
Lemma match_closed u s t m rest :
  first_match (matchers_ordered u) s = Some (t, m, rest) -> strings_closed InCode s = true -> no_fn_at_line_end s ->
  strings_closed InCode rest = true /\ (t <> TNewline -> one_line m = true).
Proof.
  intros H Hc Hf. destruct (first_match_split _ _ _ _ _ H) as [Es _].
  assert (Hq : forallb quiet m = true -> strings_closed InCode rest = true /\ (t <> TNewline -> one_line m = true)).
  { intro Q. split; [|intros _; apply quiet_one_line; exact Q]. rewrite Es, closed_quiet in Hc by exact Q. exact Hc. }
  pose proof H as H0. apply first_match_In in H as [f [Hin Hm]]. unfold matchers_ordered in Hin. simpl in Hin.
  destruct Hin as [E|Hin]; [injection E as <- <-|].
  { unfold m_newline, m_lit in Hm. destruct (strip_prefix [c_nl] s) eqn:E2; [|discriminate]. inversion Hm; subst.
    apply strip_prefix_spec in E2. split; [exact Hc|congruence]. }
  destruct Hin as [E|Hin]; [injection E as <- <-|].
  { destruct (comment_match _ _ _ _ H0) as [tx [-> [Htx Hr]]]. subst s.
    cbn [app strings_closed] in Hc. change (c_hash =? c_dquote)%N with false in Hc. change (c_hash =? c_hash)%N with true in Hc.
    cbv iota in Hc. rewrite closed_comment in Hc by exact Htx. split.
    - destruct Hr as [->|[r ->]]; [reflexivity|]. cbn [strings_closed] in *.
      change (c_nl =? c_nl)%N with true in Hc. exact Hc.
    - intros _. unfold one_line. cbn [forallb]. rewrite Htx. reflexivity. }
  destruct Hin as [E|Hin]; [injection E as <- <-|].
  { unfold m_dq in Hm. destruct s as [|c s]; [discriminate|]. destruct (N.eqb_spec c c_dquote) as [->|]; [|discriminate].
    cbn [strings_closed] in Hc. change (c_dquote =? c_dquote)%N with true in Hc. cbv iota in Hc.
    destruct (dq_loop_closed (length s) _ _ _ _ _ (le_n _) Hm Hc eq_refl) as [H1 H2]; [discriminate|]. auto. }
  destruct Hin as [E|Hin]; [injection E as <- <-|].
  { unfold m_fn in Hm. destruct (strip_prefix (lit "fn") s) as [x|] eqn:E2; [|discriminate].
    apply strip_prefix_spec in E2. destruct (span is_ws x) as [y z] eqn:E3. apply span_spec in E3 as [-> [Hy _]].
    apply Hq. destruct y as [|y0 y]; [discriminate|]. injection Hm as <- <-.
    change (forallb quiet (y0 :: y) = true). remember (y0 :: y) as yy. clear Heqyy y0 y.
    rewrite forallb_forall. intros c Hin. rewrite forallb_forall in Hy. pose proof (Hy c Hin) as Hw.
    destruct (N.eqb_spec c c_nl) as [->|Hn].
    - exfalso. apply in_split in Hin as [w [b ->]]. apply (Hf [] w (b ++ z)).
      + simpl app at 1. rewrite E2. rewrite <- !app_assoc. reflexivity.
      + rewrite forallb_forall. intros d Hd. apply Hy. apply in_or_app. auto.
    - apply blank_quiet; [exact Hw|lia]. }
  apply Hq.
  repeat (destruct Hin as [E|Hin]; [injection E as <- <-; try (eapply lit_quiet; [|exact Hm]; reflexivity)|]); try contradiction.
  - eapply alt_quiet; [|exact Hm]; reflexivity.
  - unfold m_float in Hm. destruct (span (is_digit u) s) as [x y] eqn:E2. apply span_spec in E2 as [_ [Hx _]].
    destruct x as [|x0 x]; [discriminate|]. destruct y as [|d y]; [discriminate|]. destruct (N.eqb_spec d c_dot) as [->|]; [|discriminate].
    destruct (span (is_digit u) y) as [v w] eqn:E3. apply span_spec in E3 as [_ [Hv _]]. injection Hm as <- <-.
    change (forallb quiet ((x0 :: x) ++ c_dot :: v) = true). rewrite forallb_app.
    rewrite (forallb_quiet _ _ (digit_quiet u) Hx). cbn [forallb]. rewrite (forallb_quiet _ _ (digit_quiet u) Hv). reflexivity.
  - unfold m_integer, m_plus in Hm. destruct (span (is_digit u) s) as [x y] eqn:E2. apply span_spec in E2 as [_ [Hx _]].
    destruct x as [|x0 x]; [discriminate|]. injection Hm as <- <-. exact (forallb_quiet _ _ (digit_quiet u) Hx).
  - unfold m_reference in Hm. destruct (span (ref_char u) s) as [x y] eqn:E2. apply span_spec in E2 as [_ [Hx _]].
    pose proof (forallb_quiet _ _ (ref_quiet u) Hx) as Hx'.
    destruct x as [|x0 x]; [discriminate|]. destruct y as [|d y]; [injection Hm as <- <-; exact Hx'|].
    destruct (N.eqb_spec d c_dot) as [->|]; injection Hm as <- <-; [|exact Hx'].
    change (forallb quiet ((x0 :: x) ++ [c_dot]) = true). rewrite forallb_app, Hx'. reflexivity.
Qed.

(** ** Positions *)
(** [p] is the position just after [pre] (columns: for ASCII texts only) *)
Definition after (s pre : str) (p : position) : Prop :=
  line_number p = nl_count pre /\ (forallb is_ascii s = true -> line_offset p = tail_len pre).
Definition token_at (s : str) (t : token_match) : Prop :=
  exists pre r, s = pre ++ tm_str t ++ r /\ tm_str t <> [] /\ one_line (tm_str t) = true /\ after s pre (tm_position t).

Lemma trim_one_line_pre c m : is_ws c = false -> one_line (c :: m) = true -> one_line (trim (c :: m)) = true.
Proof.
  intros Hc H. destruct (trim_piece c m Hc) as [b [E _]]. rewrite E in H. apply one_line_app in H as [H _]. exact H.
Qed.

Lemma lex_located u s : forall fuel pre p off ln acc,
  s = pre ++ p -> strings_closed InCode p = true -> no_fn_at_line_end p ->
  after s pre {| line_number := ln; line_offset := off |} -> Forall (token_at s) acc ->
  match lex_loop fuel u p off ln acc with
  | Ok lx => Forall (token_at s) (lx_tokens lx)
             /\ exists pre' r, s = pre' ++ r /\ forallb is_ws r = true /\ after s pre' (lx_eof lx)
  | Err ut => exists pre', s = pre' ++ ut_input ut /\ ut_input ut <> [] /\ (exists c r, ut_input ut = c :: r /\ c <> c_nl)
              /\ after s pre' (ut_position ut)
  | _ => True
  end.
Proof.
  induction fuel as [|fuel IH]; intros pre p off ln acc Es Hc Hf Hpos Hacc; [exact I|]. cbn [lex_loop].
  destruct (span is_blank p) as [ws body] eqn:Hsp.
  destruct (span_spec _ _ _ _ Hsp) as [Ep [Hws Hb]].
  pose proof (forallb_blank_ws _ Hws) as Hws'. pose proof (blank_one_line _ Hws) as Hws1.
  assert (Hwq : forallb quiet ws = true).
  { rewrite forallb_forall. intros c Hin. rewrite forallb_forall in Hws. specialize (Hws c Hin).
    unfold is_blank in Hws. apply andb_prop in Hws as [Hws _]. apply andb_prop in Hws as [H1 H2]. apply blank_quiet; [exact H1|lia]. }
  destruct (first_match (matchers_ordered u) body) as [[[t m] rest]|] eqn:Hm.
  2:{ destruct (forallb is_ws p) eqn:Hp.
      - split; [apply Forall_rev; exact Hacc|]. exists pre, p. auto.
      - exists pre. cbn [ut_input ut_position].
        assert (p <> []) by (intro X; rewrite X in Hp; discriminate). repeat split; try tauto; try apply Hpos.
        destruct p as [|c p]; [congruence|]. exists c, p. split; [reflexivity|]. intros ->.
        assert (ws = []) by (destruct ws as [|w ws]; [reflexivity|]; injection Ep as <- _; discriminate). subst ws.
        simpl in Ep. subst body. rewrite first_match_nl in Hm. discriminate. }
  destruct (first_match_split _ _ _ _ _ Hm) as [Ebody Hne].
  destruct m as [|c m]; [congruence|]. clear Hne.
  assert (Hcb : is_blank c = false) by (rewrite Ebody in Hb; exact Hb).
  assert (Hc' : strings_closed InCode body = true) by (rewrite Ep, closed_quiet in Hc; assumption).
  assert (Hf' : no_fn_at_line_end body) by (rewrite Ep in Hf; eapply no_fn_tail; exact Hf).
  destruct (match_closed _ _ _ _ _ Hm Hc' Hf') as [Hcr Hone].
  assert (Hfr : no_fn_at_line_end rest) by (rewrite Ebody in Hf'; eapply no_fn_tail; exact Hf').
  assert (Hes' : s = (pre ++ ws ++ c :: m) ++ rest) by (rewrite Es, Ep, Ebody, <- !app_assoc; reflexivity).
  assert (Hlen : forallb is_ascii s = true -> utf8_len (ws ++ c :: m) = length (ws ++ c :: m)).
  { intro A. apply utf8_len_ascii. rewrite Hes', !forallb_app in A. rewrite forallb_app. clear -A. lia. }
  (* the rest of the loop *)
  assert (Hrest : forall acc' off' ln',
    after s (pre ++ ws ++ c :: m) {| line_number := ln'; line_offset := off' |} -> Forall (token_at s) acc' ->
    match (if forallb is_ws rest
           then Ok {| lx_tokens := rev acc'; lx_eof := {| line_number := ln'; line_offset := off' |} |}
           else lex_loop fuel u rest off' ln' acc') with
    | Ok lx => Forall (token_at s) (lx_tokens lx)
               /\ exists pre' r, s = pre' ++ r /\ forallb is_ws r = true /\ after s pre' (lx_eof lx)
    | Err ut => exists pre', s = pre' ++ ut_input ut /\ ut_input ut <> [] /\ (exists c r, ut_input ut = c :: r /\ c <> c_nl)
                /\ after s pre' (ut_position ut)
    | _ => True
    end).
  { intros acc' off' ln' Ha Hac. destruct (forallb is_ws rest) eqn:Hr.
    - split; [apply Forall_rev; exact Hac|]. exists (pre ++ ws ++ c :: m), rest. auto.
    - apply (IH (pre ++ ws ++ c :: m)); auto. }
  rewrite Ebody in Hm. change ((c :: m) ++ rest) with (c :: m ++ rest) in Hm.
  destruct Hpos as [Hln Hoff]. cbn [line_number line_offset] in Hln, Hoff.
  destruct (match_head _ _ _ _ _ _ Hm Hcb) as [[Ht Hcn] | [Hcw Hcn]].
  - subst t c. rewrite first_match_nl in Hm. inversion Hm as [[Em Er]]. subst m. apply Hrest; [|exact Hacc].
    split; cbn [line_number line_offset].
    + rewrite !nl_count_app, (nl_count_one_line ws) by exact Hws1. change (nl_count [c_nl]) with 1. clear -Hln. lia.
    + intros _. rewrite app_assoc, tail_len_snoc. reflexivity.
  - assert (Hnn : t <> TNewline) by (intros ->; apply newline_match in Hm; congruence).
    specialize (Hone Hnn).
    assert (Hone' : one_line (ws ++ c :: m) = true) by (apply one_line_app; auto).
    assert (Hnext : after s (pre ++ ws ++ c :: m) {| line_number := ln; line_offset := off + utf8_len (ws ++ c :: m) |}).
    { split; cbn [line_number line_offset].
      - rewrite nl_count_app, (nl_count_one_line _ Hone'). clear -Hln. lia.
      - intro A. rewrite (Hlen A), tail_len_one_line, (Hoff A) by exact Hone'. reflexivity. }
    destruct (trim_piece c m Hcw) as [b [Em [Hbw Htn]]].
    assert (Htok : token_at s {| tm_token := t; tm_str := trim (ws ++ c :: m);
                    tm_position := {| line_number := ln; line_offset := off + length ws |} |}).
    { exists (pre ++ ws), (b ++ rest). cbn [tm_str tm_position]. rewrite trim_app_ws by exact Hws'. repeat split.
      - rewrite Hes'. rewrite Em at 1. rewrite <- !app_assoc. reflexivity.
      - exact Htn.
      - apply trim_one_line_pre; assumption.
      - cbn [line_number]. rewrite nl_count_app, (nl_count_one_line ws) by exact Hws1. clear -Hln. lia.
      - intro A. cbn [line_offset]. rewrite tail_len_one_line by exact Hws1. rewrite (Hoff A). reflexivity. }
    destruct t; try congruence; (apply Hrest; [exact Hnext|]); try exact Hacc; constructor; assumption.
Qed.

Lemma ast_lex_located u s : strings_closed InCode s = true -> no_fn_at_line_end s ->
  match ast_lex u s with
  | Ok lx => Forall (token_at s) (lx_tokens lx)
             /\ exists pre' r, s = pre' ++ r /\ forallb is_ws r = true /\ after s pre' (lx_eof lx)
  | Err ut => exists pre', s = pre' ++ ut_input ut /\ ut_input ut <> [] /\ (exists c r, ut_input ut = c :: r /\ c <> c_nl)
              /\ after s pre' (ut_position ut)
  | _ => True
  end.
Proof.
  intros Hc Hf. unfold ast_lex. destruct (strip_prefix [c_eq] s) as [r|] eqn:E.
  - apply strip_prefix_spec in E. apply (lex_located u s _ [c_eq]); auto.
    + rewrite E in Hc. exact Hc.
    + rewrite E in Hf. eapply no_fn_tail; exact Hf.
    + split; reflexivity.
  - apply (lex_located u s _ []); auto. split; reflexivity.
Qed.

(** ** Errors of a code section *)
Lemma unknown_shown {A} ut (e : parse_error) : @unknown_error A ut = Err e ->
  pe_kind e = EUnknownToken /\ pe_position e = ut_position ut /\ pe_eof e = false /\ exists r, ut_input ut = pe_saw e ++ r.
Proof.
  unfold unknown_error. destruct (_ <=? _).
  - intro H; inversion H; subst. cbn. repeat split. exists []. rewrite app_nil_r. reflexivity.
  - destruct (byte_split 50 (ut_input ut)) as [[a b]|] eqn:E; [|discriminate]. intro H; inversion H; subst. cbn.
    repeat split. exists b. apply byte_split_spec in E as [E _]. exact E.
Qed.

(** the text [b] that starts at a place and the line it is on *)
Lemma app_cases (a : str) : forall b c d, a ++ b = c ++ d ->
  (exists y, a = c ++ y /\ d = y ++ b) \/ (exists y, y <> [] /\ c = a ++ y /\ b = y ++ d).
Proof.
  induction a as [|x a IH]; intros b c d E.
  - destruct c as [|z c]; [left; exists []; split; [reflexivity|]; simpl in *; congruence|].
    right. exists (z :: c). repeat split; [discriminate|exact E].
  - destruct c as [|z c]; [left; exists (x :: a); split; [reflexivity|]; simpl in *; congruence|].
    simpl in E. injection E as -> E. destruct (IH _ _ _ E) as [[y [-> ->]]|[y [Hy [-> ->]]]]; [left|right]; exists y; auto.
Qed.
Lemma line_split (ls : list str) : forall pre b, forallb one_line ls = true -> ls <> [] ->
  join [c_nl] ls = pre ++ b ->
  exists l x later, nth_error ls (nl_count pre) = Some (x ++ l) /\ length x = tail_len pre
    /\ b = l ++ later /\ (later = [] \/ exists r, later = c_nl :: r).
Proof.
  assert (H0 : forall pre y, one_line (pre ++ y) = true -> nl_count pre = 0 /\ tail_len pre = length pre).
  { intros pre y H. apply one_line_app in H as [H _]. split; [apply nl_count_one_line; exact H|].
    rewrite <- (app_nil_l pre) at 1. rewrite tail_len_one_line by exact H. reflexivity. }
  induction ls as [|l ls IH]; intros pre b Hl Hne E; [congruence|]. cbn [forallb] in Hl. apply andb_prop in Hl as [Hl Hls].
  destruct ls as [|l' ls].
  - cbn [join] in E. exists b, pre, []. subst l. destruct (H0 _ _ Hl) as [-> ->]. rewrite app_nil_r. auto.
  - change (join [c_nl] (l :: l' :: ls)) with (l ++ c_nl :: join [c_nl] (l' :: ls)) in E.
    destruct (app_cases _ _ _ _ E) as [[y [-> ->]]|[y [Hy [-> Ey]]]].
    + exists y, pre, (c_nl :: join [c_nl] (l' :: ls)). destruct (H0 _ _ Hl) as [-> ->]. eauto 6.
    + destruct y as [|c y]; [congruence|]. injection Ey as <- Ey.
      destruct (IH y b Hls ltac:(discriminate) Ey) as [k [x [later [E1 [E2 [E3 E4]]]]]].
      exists k, x, later. replace (l ++ c_nl :: y) with ((l ++ [c_nl]) ++ y) by (rewrite <- app_assoc; reflexivity).
      rewrite !nl_count_app, (nl_count_one_line _ Hl). change (nl_count [c_nl]) with 1. simpl plus. repeat split; auto.
      rewrite E2. clear. induction y as [|c y IH] using rev_ind.
      * rewrite app_nil_r, tail_len_snoc. reflexivity.
      * rewrite app_assoc, !tail_len_snoc, IH. reflexivity.
Qed.

(** what an error shows, and where *)
Definition shown_after (s : str) (e : parse_error) : Prop :=
  exists pre b, s = pre ++ b /\ after s pre (pe_position e)
  /\ ((pe_eof e = false /\ exists tok r, tok <> [] /\ one_line tok = true
         /\ pe_saw e = [c_backtick] ++ tok ++ [c_backtick] /\ b = tok ++ r)
      \/ (pe_eof e = false /\ pe_kind e = EUnknownToken /\ (exists c r, b = c :: r /\ c <> c_nl) /\ exists r, b = pe_saw e ++ r)
      \/ (pe_saw e = lit "EOF" /\ pe_eof e = true /\ forallb is_ws b = true)).
Lemma locate_shown {A} u s (k : lexed -> outcome perr A) e :
  strings_closed InCode s = true -> no_fn_at_line_end s ->
  match ast_lex u s with
  | Ok lx => locate lx (k lx)
  | Err ut => unknown_error ut
  | Panic => Panic
  | NoFuel => NoFuel
  end = Err e -> shown_after s e.
Proof.
  intros Hc Hf. pose proof (ast_lex_located u s Hc Hf) as H. destruct (ast_lex u s) as [lx|ut| |]; try discriminate.
  - destruct H as [Ht [pre' [r' [E1 [E2 E3]]]]]. destruct (k lx) as [a|pe| |]; try discriminate. cbn [locate].
    unfold error_token. destruct (nth_error (lx_tokens lx) _) as [t|] eqn:En; intro X; injection X as <-.
    + apply nth_error_In in En. rewrite Forall_forall in Ht. destruct (Ht t En) as [pre [r [F1 [F2 [F3 F4]]]]].
      exists pre, (tm_str t ++ r). cbn [pe_position pe_saw pe_eof pe_kind]. repeat split; try apply F4; auto.
      left. split; [reflexivity|]. exists (tm_str t), r. auto.
    + exists pre', r'. cbn [pe_position pe_saw pe_eof pe_kind]. split; [exact E1|]. split; [exact E3|]. auto.
  - intro X. destruct (unknown_shown _ _ X) as [K [P [Z [r R]]]]. destruct H as [pre' [E1 [E2 [E3 E4]]]].
    exists pre', (ut_input ut). rewrite P. split; [exact E1|]. split; [exact E4|]. right. left. eauto.
Qed.
Lemma code_shown o s e : strings_closed InCode s = true -> no_fn_at_line_end s ->
  code_section_parse o s = Err e -> shown_after s e.
Proof.
  intros Hc Hf H.
  apply (locate_shown (o_unicode o) s (fun lx => parse_scope (S (length (erase (lx_tokens lx)))) o (erase (lx_tokens lx)) empty_scope []) e Hc Hf H).
Qed.
Lemma formula_shown o sg s e : strings_closed InCode s = true -> no_fn_at_line_end s ->
  ast_parse o sg s = Err e -> shown_after s e.
Proof.
  intros Hc Hf H.
  apply (locate_shown (o_unicode o) s (fun lx => do (e, _) <- expr_bp (parser_fuel (erase (lx_tokens lx))) o sg 0 (erase (lx_tokens lx)); Ok e) e Hc Hf H).
Qed.

(** ** Lines of the file *)
Lemma strip_cr_one_line l : one_line l = true -> one_line (strip_cr l) = true.
Proof.
  intro H. unfold strip_cr. destruct (rev l) as [|c r] eqn:E; [exact H|]. destruct (c =? c_cr)%N; [|exact H].
  assert (E2 : l = rev r ++ [c]) by (rewrite <- (rev_involutive l), E; reflexivity).
  rewrite E2 in H. apply one_line_app in H as [H _]. exact H.
Qed.
Lemma lines_aux_one_line s : forall cur, one_line cur = true -> forallb one_line (lines_aux s cur) = true.
Proof.
  induction s as [|c s IH]; intros cur H; cbn [lines_aux].
  - destruct cur; [reflexivity|]. cbn [forallb]. rewrite H. reflexivity.
  - destruct (N.eqb_spec c c_nl) as [->|Hn].
    + cbn [forallb]. rewrite strip_cr_one_line by exact H. apply (IH [] eq_refl).
    + apply IH. apply one_line_app. split; [exact H|]. unfold one_line. simpl. lia.
Qed.
Lemma lines_of_one_line s : forallb one_line (lines_of s) = true.
Proof. apply lines_aux_one_line. reflexivity. Qed.

Theorem code_error_line o text code e : code_section (source_code_new text) = Some code ->
  code_section_parse o code = Err e -> strings_closed InCode code = true -> no_fn_at_line_end code ->
  exists a b, nth_error (lines_of text) (line_number (pe_position e)) = Some (a ++ b)
    /\ (forallb is_ascii code = true -> length a = line_offset (pe_position e))
    /\ shown_at e b.
Proof.
  intros Hs Hp Hc Hf. pose proof (split_complete text) as Sp. cbv zeta in Sp. rewrite Hs in Sp.
  destruct Sp as [cl [sep [csv [E1 [_ [_ [Ec _]]]]]]].
  destruct (code_shown _ _ _ Hc Hf Hp) as [pre [b [Ecode [Hpos Hsh]]]].
  destruct cl as [|l0 cl0] eqn:Ecl.
  { cbn [join] in Ec. rewrite Ec in Hp. exfalso. cbv in Hp. discriminate. }
  rewrite <- Ecl in *. assert (Hne : cl <> []) by (rewrite Ecl; discriminate). clear Ecl l0 cl0.
  assert (Hone : forallb one_line cl = true).
  { pose proof (lines_of_one_line text) as H. rewrite E1, forallb_app in H. apply andb_prop in H as [H _]. exact H. }
  destruct (line_split cl pre b Hone Hne) as [l [x [later [F1 [F2 [F3 F4]]]]]]; [congruence|].
  destruct Hpos as [Hln Hoff]. exists x, l. split; [|split].
  - rewrite Hln, E1, nth_error_app1; [exact F1|]. apply nth_error_Some. rewrite F1. discriminate.
  - intro A. rewrite F2, Hoff by exact A. reflexivity.
  - assert (Hlate : forall t r, one_line t = true -> t ++ r = l ++ later -> exists y, l = t ++ y).
    { intros t r Ht E. destruct (app_cases _ _ _ _ E) as [[y [E2 E3]]|[y [Hy [E2 E3]]]].
      - destruct F4 as [->|[z ->]]; [destruct y; [|discriminate]; exists []; rewrite app_nil_r in *; congruence|].
        destruct y as [|c y]; [exists []; rewrite app_nil_r in *; congruence|]. simpl in E3. injection E3 as <- _.
        rewrite E2 in Ht. apply one_line_app in Ht as [_ Ht]. discriminate.
      - eauto. }
    destruct Hsh as [[_ [tok [r [T1 [T2 [T3 T4]]]]]]|[[_ [K [[c [r [Hb Hn]]] [r' Hr]]]]|[K1 [K2 K3]]]].
    + left. destruct (Hlate tok r T2) as [y Hy]; [congruence|]. exists tok, y. auto.
    + right; left. split; [exact K|]. split.
      * intros ->. simpl in F3. destruct F4 as [->|[z ->]]; congruence.
      * rewrite F3 in Hr. destruct (app_cases _ _ _ _ Hr) as [[y [Hy _]]|[y [_ [Hy _]]]]; eauto.
    + right; right. repeat split; auto. rewrite F3, forallb_app in K3. apply andb_prop in K3 as [K3 _]. exact K3.
Qed.
