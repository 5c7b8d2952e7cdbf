(** * CellProofs3: dates, numbers, words and lists of values. *)
From Verif Require Import Base BaseProofs Csvp Ast AstLexer AstParser AstLexerProofs Options CellLexer CellParser CellSpec CellProofs CellProofs2.
From Coq Require Import ZifyBool ZifyN.

Definition not_digit_head (r : str) : Prop := match r with c :: _ => is_ascii_digit c = false | [] => True end.

(** ** The regular expressions on ASCII text *)
Lemma m_digits_ok u : forall n s a r, ascii s -> m_digits u n s = Some (a, r) ->
  s = a ++ r /\ length a = n /\ forallb is_ascii_digit a = true.
Proof.
  induction n as [|n IH]; intros s a r Ha H; cbn [m_digits] in H.
  - inversion H; subst. auto.
  - destruct s as [|c s]; [discriminate|]. apply ascii_cons in Ha as [Hc Ha]. rewrite ascii_digit in H by exact Hc.
    destruct (is_ascii_digit c) eqn:D; [|discriminate]. destruct (m_digits u n s) as [[a' r']|] eqn:E; [|discriminate].
    inversion H; subst. apply IH in E as [-> [L F]]; [|exact Ha]. cbn. rewrite D, F, L. auto.
Qed.
Lemma m_digits_done u a r : forallb is_ascii_digit a = true -> m_digits u (length a) (a ++ r) = Some (a, r).
Proof.
  induction a as [|c a IH]; [reflexivity|]. cbn. intro H. apply andb_true_iff in H as [Hc Ha].
  rewrite ascii_digit by (unfold is_ascii_digit, is_ascii in *; lia). rewrite Hc, IH by exact Ha. reflexivity.
Qed.
Lemma m_digits_short u : forall n a r, forallb is_ascii_digit a = true -> length a < n -> ascii r -> not_digit_head r ->
  m_digits u n (a ++ r) = None.
Proof.
  induction n as [|n IH]; intros a r Ha Hl Hr Hd; [lia|]. destruct a as [|c a].
  - cbn [app]. destruct r as [|c r]; [reflexivity|]. apply ascii_cons in Hr as [Hc _]. cbn [m_digits].
    rewrite ascii_digit by exact Hc. cbn in Hd. rewrite Hd. reflexivity.
  - cbn in Ha. apply andb_true_iff in Ha as [Hc Ha]. cbn [app m_digits].
    rewrite ascii_digit by (unfold is_ascii_digit, is_ascii in *; lia). rewrite Hc, IH; auto. cbn in Hl. lia.
Qed.
Lemma m_up_to_ok u : forall hi s a r, ascii s -> m_digits_up_to u hi s = (a, r) ->
  s = a ++ r /\ length a <= hi /\ forallb is_ascii_digit a = true.
Proof.
  induction hi as [|n IH]; intros s a r Ha H.
  - destruct s; inversion H; subst; auto.
  - destruct s as [|c s]; [inversion H; subst; auto with arith|]. apply ascii_cons in Ha as [Hc Ha]. cbn [m_digits_up_to] in H.
    rewrite ascii_digit in H by exact Hc. destruct (is_ascii_digit c) eqn:D; [|inversion H; subst; cbn; auto with arith].
    destruct (m_digits_up_to u n s) as [a' r'] eqn:E. inversion H; subst. apply IH in E as [-> [L F]]; [|exact Ha].
    cbn. rewrite D, F. split; [reflexivity|]. split; [lia|reflexivity].
Qed.
Lemma m_up_to_done u : forall hi a r, forallb is_ascii_digit a = true -> length a <= hi -> ascii r -> not_digit_head r ->
  m_digits_up_to u hi (a ++ r) = (a, r).
Proof.
  induction hi as [|n IH]; intros a r Ha Hl Hr Hd.
  - destruct a; [|cbn in Hl; lia]. destruct r; reflexivity.
  - destruct a as [|c a].
    + cbn [app]. destruct r as [|c r]; [reflexivity|]. apply ascii_cons in Hr as [Hc _]. cbn [m_digits_up_to].
      rewrite ascii_digit by exact Hc. cbn in Hd. rewrite Hd. reflexivity.
    + cbn in Ha. apply andb_true_iff in Ha as [Hc Ha]. cbn [app m_digits_up_to].
      rewrite ascii_digit by (unfold is_ascii_digit, is_ascii in *; lia). rewrite Hc, IH; auto. cbn in Hl. lia.
Qed.
Lemma m_range_ok u lo hi s a r : ascii s -> m_range u lo hi s = Some (a, r) -> s = a ++ r /\ digits lo hi a.
Proof.
  intros Ha H. unfold m_range in H. destruct (m_digits_up_to u hi s) as [x y] eqn:E. apply m_up_to_ok in E as [-> [L F]]; [|exact Ha].
  destruct (Nat.ltb_spec (length x) lo) as [?|Hlo]; [discriminate|]. inversion H; subst. split; [reflexivity|]. split; [lia|exact F].
Qed.
Lemma m_range_done u lo hi a r : digits lo hi a -> ascii r -> not_digit_head r -> m_range u lo hi (a ++ r) = Some (a, r).
Proof.
  intros [L F] Hr Hd. unfold m_range. rewrite m_up_to_done by (auto; lia).
  destruct (Nat.ltb_spec (length a) lo); [lia|reflexivity].
Qed.
Lemma m_seq_ok a b s x r : m_seq a b s = Some (x, r) ->
  exists y z m, x = y ++ z /\ a s = Some (y, m) /\ b m = Some (z, r).
Proof.
  unfold m_seq. destruct (a s) as [[y m]|] eqn:Ea; [|discriminate]. destruct (b m) as [[z r2]|] eqn:Eb; [|discriminate].
  intro H. inversion H; subst. eauto 8.
Qed.
Lemma m_lit_ok p s x r : m_lit p s = Some (x, r) -> x = p /\ s = p ++ r.
Proof.
  unfold m_lit. destruct (strip_prefix p s) as [q|] eqn:E; [|discriminate]. intro H. inversion H; subst.
  apply strip_prefix_spec in E. auto.
Qed.
Lemma m_lit_done p r : m_lit p (p ++ r) = Some (p, r).
Proof. unfold m_lit. rewrite strip_prefix_app. reflexivity. Qed.

Lemma m_date_ok u s a r : ascii s -> m_date u s = Some (a, r) -> s = a ++ r /\ date_shape a.
Proof.
  intros Ha H. unfold m_date in H. destruct (m_iso_date u s) as [[x y]|] eqn:E.
  - inversion H; subst x y. clear H. unfold m_iso_date in E.
    apply m_seq_ok in E as [y4 [z [m [-> [E1 E]]]]]. apply m_digits_ok in E1 as [-> [L1 F1]]; [|exact Ha].
    apply ascii_app in Ha as [_ Ha].
    apply m_seq_ok in E as [d1 [z1 [m1 [-> [E2 E]]]]]. apply m_lit_ok in E2 as [-> ->]. apply ascii_app in Ha as [_ Ha].
    apply m_seq_ok in E as [mo [z2 [m2 [-> [E3 E]]]]]. apply m_digits_ok in E3 as [-> [L3 F3]]; [|exact Ha].
    apply ascii_app in Ha as [_ Ha].
    apply m_seq_ok in E as [d2 [z3 [m3 [-> [E4 E]]]]]. apply m_lit_ok in E4 as [-> ->]. apply ascii_app in Ha as [_ Ha].
    apply m_digits_ok in E as [-> [L5 F5]]; [|exact Ha].
    split; [rewrite <- !app_assoc; reflexivity|]. exists y4, mo, z3. left. split; [reflexivity|].
    unfold digits. rewrite L1, L3, L5. auto 10.
  - clear E. unfold m_us_date in H.
    apply m_seq_ok in H as [y4 [z [m [-> [E1 E]]]]]. apply m_range_ok in E1 as [-> D1]; [|exact Ha].
    apply ascii_app in Ha as [_ Ha].
    apply m_seq_ok in E as [d1 [z1 [m1 [-> [E2 E]]]]]. apply m_lit_ok in E2 as [-> ->]. apply ascii_app in Ha as [_ Ha].
    apply m_seq_ok in E as [mo [z2 [m2 [-> [E3 E]]]]]. apply m_range_ok in E3 as [-> D3]; [|exact Ha].
    apply ascii_app in Ha as [_ Ha].
    apply m_seq_ok in E as [d2 [z3 [m3 [-> [E4 E]]]]]. apply m_lit_ok in E4 as [-> ->]. apply ascii_app in Ha as [_ Ha].
    apply m_range_ok in E as [-> D5]; [|exact Ha].
    split; [rewrite <- !app_assoc; reflexivity|]. exists y4, mo, z3. right. auto.
Qed.
Lemma m_date_done u a r : date_shape a -> ascii (a ++ r) -> not_digit_head r -> m_date u (a ++ r) = Some (a, r).
Proof.
  intros [x [y [z [[-> [D1 [D2 D3]]]|[-> [D1 [D2 D3]]]]]]] Ha Hr; unfold m_date.
  - assert (E : m_iso_date u ((x ++ [c_minus] ++ y ++ [c_minus] ++ z) ++ r) = Some (x ++ [c_minus] ++ y ++ [c_minus] ++ z, r)).
    { rewrite <- !app_assoc. unfold m_iso_date, m_seq. destruct D1 as [L1 F1], D2 as [L2 F2], D3 as [L3 F3].
      assert (M1 : m_digits u 4 (x ++ [c_minus] ++ y ++ [c_minus] ++ z ++ r) = Some (x, [c_minus] ++ y ++ [c_minus] ++ z ++ r)).
      { replace 4 with (length x) by lia. apply m_digits_done. exact F1. }
      assert (M2 : m_digits u 2 (y ++ [c_minus] ++ z ++ r) = Some (y, [c_minus] ++ z ++ r)).
      { replace 2 with (length y) by lia. apply m_digits_done. exact F2. }
      assert (M3 : m_digits u 2 (z ++ r) = Some (z, r)).
      { replace 2 with (length z) by lia. apply m_digits_done. exact F3. }
      rewrite M1, m_lit_done, M2, m_lit_done, M3. reflexivity. }
    rewrite E. reflexivity.
  - assert (A : ascii ([c_slash] ++ y ++ [c_slash] ++ z ++ r) /\ ascii ([c_slash] ++ z ++ r) /\ ascii r).
    { rewrite <- !app_assoc in Ha. apply ascii_app in Ha as [_ Ha]. split; [exact Ha|].
      apply ascii_app in Ha as [_ Ha]. apply ascii_app in Ha as [_ Ha]. split; [exact Ha|].
      apply ascii_app in Ha as [_ Ha]. apply ascii_app in Ha as [_ Ha]. exact Ha. }
    destruct A as [A1 [A2 A3]].
    assert (E1 : m_iso_date u ((x ++ [c_slash] ++ y ++ [c_slash] ++ z) ++ r) = None).
    { rewrite <- !app_assoc. unfold m_iso_date, m_seq. rewrite m_digits_short; [reflexivity| | |exact A1|reflexivity].
      - apply D1.
      - destruct D1. lia. }
    rewrite E1. rewrite <- !app_assoc. unfold m_us_date, m_seq.
    rewrite (m_range_done u 1 2 x) by (auto; reflexivity). rewrite m_lit_done.
    rewrite (m_range_done u 1 2 y) by (auto; reflexivity). rewrite m_lit_done.
    rewrite (m_range_done u 2 4 z) by auto. reflexivity.
Qed.

(** the shapes of numbers in lists *)
Definition int_shape (t : str) : Prop := all_digits t = true \/ exists a', t = c_minus :: a' /\ all_digits a' = true.
Definition float_shape (t : str) : Prop := exists a b, t = a ++ [c_dot] ++ b /\ int_shape a /\ all_digits b = true.
Lemma span_digit_ascii u s : ascii s -> span (is_digit u) s = span is_ascii_digit s.
Proof.
  induction s as [|c s IH]; [reflexivity|]. intro H. apply ascii_cons in H as [Hc Ha]. cbn [span].
  rewrite ascii_digit, IH by assumption. reflexivity.
Qed.
Lemma all_digits_forallb c s : forallb is_ascii_digit (c :: s) = true -> all_digits (c :: s) = true.
Proof. intro H. exact H. Qed.
Lemma all_digits_inv s : all_digits s = true -> s <> [] /\ forallb is_ascii_digit s = true.
Proof. destruct s; [discriminate|]. intro H. split; [discriminate|exact H]. Qed.
Lemma digit_ascii s : forallb is_ascii_digit s = true -> ascii s.
Proof.
  unfold ascii. induction s as [|c s IH]; [reflexivity|]. cbn. intro H. apply andb_true_iff in H as [Hc Hs].
  rewrite IH by exact Hs. unfold is_ascii_digit, is_ascii in *. lia.
Qed.

Lemma m_number_ok u s a r : ascii s -> m_number u s = Some (a, r) -> s = a ++ r /\ (int_shape a \/ float_shape a).
Proof.
  intros Ha H. unfold m_number in H.
  assert (K : forall sg s1, s = sg ++ s1 -> sg = [] \/ sg = [c_minus] ->
    match span (is_digit u) s1 with
    | ([], _) => None
    | (a, r) =>
      match m_seq (m_lit [c_dot]) (m_plus (is_digit u)) r with
      | Some (b, r2) => Some (sg ++ a ++ b, r2)
      | None => Some (sg ++ a, r)
      end
    end = Some (a, r) -> s = a ++ r /\ (int_shape a \/ float_shape a)).
  { clear H. intros sg s1 Es Hsg H. subst s. apply ascii_app in Ha as [_ Ha]. rewrite (span_digit_ascii u s1 Ha) in H.
    destruct (span is_ascii_digit s1) as [x y] eqn:Sp. apply span_spec in Sp as [-> [Fx _]]. apply ascii_app in Ha as [_ Ha].
    destruct x as [|c x]; [discriminate|].
    assert (I : int_shape (sg ++ c :: x)).
    { destruct Hsg as [->| ->]; [left; exact Fx|]. right. exists (c :: x). split; [reflexivity|exact Fx]. }
    destruct (m_seq (m_lit [c_dot]) (m_plus (is_digit u)) y) as [[b r2]|] eqn:Sq.
    - apply m_seq_ok in Sq as [d [z [m [-> [E1 E2]]]]]. apply m_lit_ok in E1 as [-> ->]. apply ascii_app in Ha as [_ Ha].
      unfold m_plus in E2. rewrite (span_digit_ascii u m Ha) in E2. destruct (span is_ascii_digit m) as [p q] eqn:Sp.
      apply span_spec in Sp as [-> [Fp _]]. destruct p as [|e p]; [discriminate|]. inversion E2; subst z r2. inversion H; subst a r.
      split; [rewrite <- !app_assoc; cbn [app]; rewrite <- !app_assoc; reflexivity|]. right. exists (sg ++ c :: x), (e :: p).
      split; [rewrite <- !app_assoc; cbn [app]; rewrite <- ?app_assoc; reflexivity|]. split; [exact I|exact Fp].
    - inversion H; subst a r. split; [rewrite <- !app_assoc; reflexivity|]. left. exact I. }
  destruct s as [|c s]; [apply (K [] [] eq_refl (or_introl eq_refl) H)|].
  destruct (N.eqb_spec c c_minus) as [->|Hn]; [apply (K [c_minus] s eq_refl (or_intror eq_refl) H)|].
  apply (K [] (c :: s) eq_refl (or_introl eq_refl) H).
Qed.
Definition stops_number (r : str) : Prop := match r with c :: _ => is_ascii_digit c = false /\ c <> c_dot | [] => True end.
Lemma minus_not_digit : is_ascii_digit c_minus = false. Proof. reflexivity. Qed.
Lemma digits_head_not_minus a : all_digits a = true -> exists c a', a = c :: a' /\ (c =? c_minus)%N = false.
Proof.
  intro H. apply all_digits_inv in H as [Hn Hf]. destruct a as [|c a]; [congruence|]. exists c, a. split; [reflexivity|].
  cbn in Hf. apply andb_true_iff in Hf as [Hc _]. unfold is_ascii_digit, c_minus in *. lia.
Qed.
Lemma m_number_int u a r : int_shape a -> ascii (a ++ r) -> stops_number r -> m_number u (a ++ r) = Some (a, r).
Proof.
  intros Hi Ha Hr. apply ascii_app in Ha as [_ Ha].
  assert (K : forall d sg, all_digits d = true ->
    match span (is_digit u) (d ++ r) with
    | ([], _) => None
    | (a, r) =>
      match m_seq (m_lit [c_dot]) (m_plus (is_digit u)) r with
      | Some (b, r2) => Some (sg ++ a ++ b, r2)
      | None => Some (sg ++ a, r)
      end
    end = Some (sg ++ d, r)).
  { intros d sg Hd. apply all_digits_inv in Hd as [Hn Hf]. rewrite span_digit_ascii.
    2: { apply ascii_app. split; [apply digit_ascii; exact Hf|exact Ha]. }
    rewrite span_app; [|exact Hf|destruct r; [exact I|apply Hr]]. destruct d as [|c d]; [congruence|].
    assert (E : m_seq (m_lit [c_dot]) (m_plus (is_digit u)) r = None).
    { unfold m_seq, m_lit. destruct r as [|x r]; [reflexivity|]. destruct Hr as [_ Hx]. cbn [strip_prefix].
      destruct (N.eqb_spec c_dot x) as [?|_]; [congruence|reflexivity]. }
    rewrite E. reflexivity. }
  destruct Hi as [Hi|[a' [-> Hi]]].
  - destruct (digits_head_not_minus a Hi) as [c [a' [-> Hc]]]. unfold m_number. cbn [app]. rewrite Hc.
    exact (K (c :: a') [] Hi).
  - unfold m_number. cbn [app]. change (c_minus =? c_minus)%N with true. cbn iota. exact (K a' [c_minus] Hi).
Qed.
Lemma m_number_float u a r : float_shape a -> ascii (a ++ r) -> not_digit_head r -> m_number u (a ++ r) = Some (a, r).
Proof.
  intros [i [b [-> [Hi Hb]]]] Ha Hr. apply ascii_app in Ha as [_ Ha].
  assert (K : forall d sg, all_digits d = true ->
    match span (is_digit u) (d ++ [c_dot] ++ b ++ r) with
    | ([], _) => None
    | (a, r) =>
      match m_seq (m_lit [c_dot]) (m_plus (is_digit u)) r with
      | Some (b, r2) => Some (sg ++ a ++ b, r2)
      | None => Some (sg ++ a, r)
      end
    end = Some (sg ++ d ++ [c_dot] ++ b, r)).
  { intros d sg Hd. apply all_digits_inv in Hd as [Hn Hf]. apply all_digits_inv in Hb as [Hbn Hbf].
    assert (Ab : ascii (b ++ r)) by (apply ascii_app; split; [apply digit_ascii; exact Hbf|exact Ha]).
    rewrite span_digit_ascii.
    2: { apply ascii_app. split; [apply digit_ascii; exact Hf|]. apply ascii_app. split; [reflexivity|exact Ab]. }
    rewrite span_app; [|exact Hf|reflexivity]. destruct d as [|c d]; [congruence|].
    unfold m_seq. rewrite m_lit_done. unfold m_plus. rewrite span_digit_ascii by exact Ab.
    rewrite span_app; [|exact Hbf|destruct r; [exact I|exact Hr]]. destruct b as [|e b]; [congruence|]. reflexivity. }
  destruct Hi as [Hi|[a' [-> Hi]]].
  - destruct (digits_head_not_minus i Hi) as [c [a' [-> Hc]]]. rewrite <- !app_assoc. unfold m_number. cbn [app]. rewrite Hc.
    exact (K (c :: a') [] Hi).
  - rewrite <- !app_assoc. unfold m_number. cbn [app]. change (c_minus =? c_minus)%N with true. cbn iota. exact (K a' [c_minus] Hi).
Qed.

(** ** Tokens read by a regular expression *)
Definition no_ws (a : str) : Prop := forallb (fun c => negb (is_ws c)) a = true.
Lemma no_ws_trim a : no_ws a -> trim a = a.
Proof.
  intro H. unfold trim, trim_end. assert (K : forall x, no_ws x -> trim_start x = x).
  { intros x Hx. destruct x as [|c x]; [reflexivity|]. cbn in Hx. apply andb_true_iff in Hx as [Hc _].
    apply negb_true_iff in Hc. cbn. rewrite Hc. reflexivity. }
  rewrite (K a H), K, rev_involutive; [reflexivity|].
  unfold no_ws in *. rewrite forallb_forall in *. intros x Hx. apply H. apply in_rev. exact Hx.
Qed.
Lemma digits_no_ws s : forallb is_ascii_digit s = true -> no_ws s.
Proof.
  unfold no_ws. induction s as [|c s IH]; [reflexivity|]. cbn. intro H. apply andb_true_iff in H as [Hc Hs].
  rewrite IH by exact Hs. unfold is_ascii_digit, is_ws in *. lia.
Qed.
Lemma no_ws_app a b : no_ws (a ++ b) <-> no_ws a /\ no_ws b.
Proof. unfold no_ws. rewrite forallb_app, andb_true_iff. reflexivity. Qed.
Lemma date_no_ws a : date_shape a -> no_ws a /\ a <> [] /\ exists c a', a = c :: a' /\ is_ascii_digit c = true.
Proof.
  intros [x [y [z H]]].
  assert (K : forall p lo hi, 0 < lo -> a = x ++ [p] ++ y ++ [p] ++ z -> is_ws p = false -> digits lo hi x ->
     forallb is_ascii_digit y = true -> forallb is_ascii_digit z = true ->
     no_ws a /\ a <> [] /\ exists c a', a = c :: a' /\ is_ascii_digit c = true).
  { intros p lo hi Hlo -> Hp [L F] Fy Fz. split.
    - rewrite !no_ws_app. repeat split; try (apply digits_no_ws; assumption); unfold no_ws; cbn; rewrite Hp; reflexivity.
    - destruct x as [|c x]; [cbn in L; lia|]. split; [discriminate|]. cbn in F. apply andb_true_iff in F as [Fc _]. cbn. eauto. }
  destruct H as [[E [D1 [[_ D2] [_ D3]]]]|[E [D1 [[_ D2] [_ D3]]]]].
  - eapply (K c_minus 4 4); eauto with arith.
  - eapply (K c_slash 1 2); eauto with arith.
Qed.
Lemma int_no_ws a : int_shape a -> no_ws a /\ a <> [].
Proof.
  intros [H|[b [-> H]]]; apply all_digits_inv in H as [Hn Hf]; apply digits_no_ws in Hf.
  - auto.
  - split; [exact Hf|discriminate].
Qed.
Lemma float_no_ws a : float_shape a -> no_ws a /\ a <> [].
Proof.
  intros [i [b [-> [Hi Hb]]]]. apply int_no_ws in Hi as [Hi Hn]. apply all_digits_inv in Hb as [_ Hb]. apply digits_no_ws in Hb.
  split; [rewrite !no_ws_app; repeat split; auto|]. destruct i; [congruence|discriminate].
Qed.
Lemma m_identifier_ok u s a r : ascii s -> m_identifier u s = Some (a, r) -> s = a ++ r /\ word a.
Proof.
  intros Ha H. unfold m_identifier, m_plus in H. destruct (span (is_word u) s) as [x y] eqn:E. apply span_spec in E as [-> [F _]].
  apply ascii_app in Ha as [Ha _]. destruct x as [|c x]; [discriminate|]. inversion H; subst. split; [reflexivity|].
  split; [discriminate|]. rewrite forallb_forall in *. intros z Hz. specialize (F z Hz). rewrite ascii_word in F; [exact F|].
  unfold ascii in Ha. rewrite forallb_forall in Ha. auto.
Qed.
Definition not_word_head (r : str) : Prop := match r with c :: _ => word_char c = false | [] => True end.
Lemma word_ascii w : forallb word_char w = true -> ascii w.
Proof.
  unfold ascii. induction w as [|c w IH]; [reflexivity|]. cbn. intro H. apply andb_true_iff in H as [Hc Hw]. rewrite IH by exact Hw.
  unfold word_char, is_ascii_alnum, is_ascii_alpha, is_ascii_upper, is_ascii_lower, is_ascii_digit, is_ascii, c_underscore in *. lia.
Qed.
Lemma word_char_not_ws c : word_char c = true -> is_ws c = false.
Proof. unfold word_char, is_ascii_alnum, is_ascii_alpha, is_ascii_upper, is_ascii_lower, is_ascii_digit, is_ws, c_underscore. lia. Qed.
Lemma word_no_ws w : forallb word_char w = true -> no_ws w.
Proof.
  unfold no_ws. intro H. rewrite forallb_forall in *. intros x Hx. rewrite word_char_not_ws; auto.
Qed.
Lemma m_identifier_done u a r : word a -> ascii r -> not_word_head r -> m_identifier u (a ++ r) = Some (a, r).
Proof.
  intros [Hn Hf] Ha Hr. unfold m_identifier, m_plus.
  assert (E : span (is_word u) (a ++ r) = (a, r)).
  { apply span_app.
    - pose proof (word_ascii a Hf) as A. unfold ascii in A. rewrite forallb_forall in *. intros x Hx.
      rewrite ascii_word by auto. apply Hf. exact Hx.
    - destruct r as [|c r]; [exact I|]. apply ascii_cons in Ha as [Hc _]. rewrite ascii_word by exact Hc. exact Hr. }
  rewrite E. destruct a; [congruence|reflexivity].
Qed.

(** a token read by a regular expression that matches texts of a shape *)
Lemma maybe_take_regex_ok f l k m (P : str -> Prop) : wf f l ->
  (forall s a r, ascii s -> m s = Some (a, r) -> s = a ++ r /\ P a) -> (forall a, P a -> no_ws a) ->
  match maybe_take_regex l k m with
  | Ok (Some (t, l')) => wf f l' /\ tok_at f t /\ ct_kind t = k /\ P (ct_text t)
      /\ exists w, in_line w /\ cl_input l = w ++ ct_text t ++ cl_input l'
  | Ok None => m (snd (span is_blank (cl_input l))) = None
  | Err _ | Panic | NoFuel => False
  end.
Proof.
  intros H Hm HP. unfold maybe_take_regex. destruct (span is_blank (cl_input l)) as [ws body] eqn:Sp. cbn [snd].
  apply span_spec in Sp as [E [Fw _]]. destruct (m body) as [[a r]|] eqn:M; [|reflexivity].
  pose proof H as [Ha _]. rewrite E in Ha. apply ascii_app in Ha as [Aw Ab]. destruct (Hm _ _ _ Ab M) as [-> Pa].
  rewrite trim_app_ws by (apply forallb_blank_ws; exact Fw). rewrite (no_ws_trim a (HP a Pa)).
  rewrite <- (utf8_len_ascii ws Aw). rewrite (wf_move f l ws (a ++ r) H E). cbn [bind].
  destruct (wf_step f l ws (a ++ r) H E) as [W1 _].
  rewrite (wf_move f _ a r W1 eq_refl). cbn [bind]. destruct (wf_step f _ a r W1 eq_refl) as [W2 _].
  split; [exact W2|]. split; [apply wf_token; exact W1|]. split; [reflexivity|]. split; [exact Pa|].
  exists ws. split; [exact Fw|exact E].
Qed.
Lemma maybe_take_regex_done f l k m w a r : wf f l -> cl_input l = w ++ a ++ r -> in_line w -> no_ws a -> a <> [] ->
  m (a ++ r) = Some (a, r) ->
  exists t l', maybe_take_regex l k m = Ok (Some (t, l')) /\ cl_input l' = r /\ wf f l' /\ ct_text t = a /\ ct_kind t = k /\ tok_at f t.
Proof.
  intros H E Hw Ha Hn M. unfold maybe_take_regex.
  assert (Sp : span is_blank (cl_input l) = (w, a ++ r)).
  { rewrite E. apply span_app; [exact Hw|]. destruct a as [|c a]; [congruence|]. cbn in Ha. apply andb_true_iff in Ha as [Hc _].
    apply negb_true_iff in Hc. cbn. unfold is_blank. rewrite Hc. reflexivity. }
  rewrite Sp, M. pose proof H as [As _]. rewrite E in As. apply ascii_app in As as [Aw _].
  rewrite trim_app_ws by (apply forallb_blank_ws; exact Hw). rewrite (no_ws_trim a Ha).
  rewrite <- (utf8_len_ascii w Aw). rewrite (wf_move f l w (a ++ r) H E). cbn [bind].
  destruct (wf_step f l w (a ++ r) H E) as [W1 _].
  rewrite (wf_move f _ a r W1 eq_refl). cbn [bind]. destruct (wf_step f _ a r W1 eq_refl) as [W2 _].
  do 2 eexists. split; [reflexivity|]. split; [reflexivity|]. split; [exact W2|]. split; [reflexivity|]. split; [reflexivity|].
  apply wf_token. exact W1.
Qed.
Lemma maybe_take_regex_none l k m w a : cl_input l = w ++ a -> in_line w -> (match a with c :: _ => is_blank c = false | [] => True end) ->
  m a = None -> maybe_take_regex l k m = Ok None.
Proof.
  intros E Hw Ha M. unfold maybe_take_regex. rewrite E. rewrite span_app by assumption. rewrite M. reflexivity.
Qed.

(** ** Values: reading a token and converting it *)
Definition tok_sound {A} (tk : field -> clexer -> outcome cell_error (ctoken * clexer))
  (conv : field -> ctoken -> outcome cell_error A) (R : str -> A -> Prop) : Prop :=
  forall f l, wf f l ->
  match tk f l with
  | Ok (t, l') => wf f l' /\
      match conv f t with
      | Ok a => exists w x, spaces w /\ cl_input l = w ++ x ++ cl_input l' /\ R x a
      | Err _ => True | Panic | NoFuel => False
      end
  | Err _ => True | Panic | NoFuel => False
  end.
Definition tok_complete {A} (tk : field -> clexer -> outcome cell_error (ctoken * clexer))
  (conv : field -> ctoken -> outcome cell_error A) (stop : str -> Prop) (R : str -> A -> Prop) : Prop :=
  forall f l w x a r, wf f l -> cl_input l = w ++ x ++ r -> spaces w -> R x a -> stop r ->
  exists t l', tk f l = Ok (t, l') /\ cl_input l' = r /\ wf f l' /\ conv f t = Ok a.

(** what may follow a value: white space, a closing bracket or parenthesis, a slash *)
Definition stop_char (c : char) : bool := is_ws c || (c =? c_rparen)%N || (c =? c_rbracket)%N || (c =? c_slash)%N.
Definition stop (r : str) : Prop := match r with c :: _ => stop_char c = true | [] => True end.

Lemma or_error_spec {A} f t m (x : option A) : tok_at f t ->
  match or_error f t m x with Ok a => x = Some a | Err _ => x = None | Panic | NoFuel => False end.
Proof. intro H. destruct x as [a|]; [reflexivity|]. cbn. destruct (H A m) as [e ->]. reflexivity. Qed.

Lemma date_sound co : tok_sound (take_date co) (into_date co) (date_text co).
Proof.
  intros f l H. unfold take_date. destruct (wf_take_ws f l H) as [W [w [Hw [E _]]]].
  pose proof (maybe_take_regex_ok f (take_whitespace l) KDate (m_date (co_unicode co)) date_shape W (m_date_ok _)
    (fun a Ha => proj1 (date_no_ws a Ha))) as M.
  destruct (maybe_take_regex (take_whitespace l) KDate (m_date (co_unicode co))) as [[[t l']|]| | |]; try contradiction; cbn [bind].
  - destruct M as [W' [Ht [_ [Hs [v [Hv E2]]]]]]. split; [exact W'|]. pose proof (or_error_spec f t MDate (date_canon co (ct_text t)) Ht) as O.
    unfold into_date. destruct (or_error f t MDate (date_canon co (ct_text t))) as [d| | |]; auto.
    exists (w ++ v), (ct_text t). split; [apply spaces_app; split; [exact Hw|apply forallb_blank_ws; exact Hv]|].
    split; [rewrite E, E2, <- app_assoc; reflexivity|]. split; assumption.
  - edestruct (wf_unknown (A:=ctoken * clexer) f _ W) as [e ->]. exact I.
Qed.
Lemma stop_not_digit r : stop r -> not_digit_head r.
Proof. destruct r; [auto|]. cbn. unfold stop_char, is_ws, is_ascii_digit, c_rparen, c_rbracket, c_slash. lia. Qed.
Lemma digit_not_ws c : is_ascii_digit c = true -> is_ws c = false.
Proof. unfold is_ascii_digit, is_ws. lia. Qed.
Lemma wf_ascii_app f l a b : wf f l -> cl_input l = a ++ b -> ascii a /\ ascii b.
Proof. intros [H _] E. rewrite E in H. apply ascii_app. exact H. Qed.
Lemma date_complete co : tok_complete (take_date co) (into_date co) not_digit_head (date_text co).
Proof.
  intros f l w x d r H E Hw [Hs Hd] Hr. unfold take_date. destruct (wf_take_ws f l H) as [W _].
  destruct (date_no_ws x Hs) as [Nw [Ne [c [x' [Ex Hc]]]]].
  assert (Ei : cl_input (take_whitespace l) = x ++ r).
  { eapply take_ws_reads; eauto. rewrite Ex. cbn. apply digit_not_ws. exact Hc. }
  destruct (wf_ascii_app f _ [] _ W Ei) as [_ A].
  destruct (maybe_take_regex_done f (take_whitespace l) KDate (m_date (co_unicode co)) [] x r W Ei eq_refl Nw Ne
    (m_date_done _ x r Hs A Hr)) as [t [l' [X1 [X2 [X3 [X4 [X5 X6]]]]]]].
  rewrite X1. cbn [bind]. exists t, l'. split; [reflexivity|]. split; [exact X2|]. split; [exact X3|].
  unfold into_date. rewrite X4, Hd. reflexivity.
Qed.

Definition number_char (c : char) : bool := is_ascii_digit c || (c =? c_minus)%N || (c =? c_dot)%N.
Lemma number_char_not_ws c : number_char c = true -> is_ws c = false.
Proof. unfold number_char, is_ascii_digit, is_ws, c_minus, c_dot. lia. Qed.
Lemma parse_signed_spec t z : parse_signed t = Some z <-> integer_text t z.
Proof.
  unfold parse_signed, integer_text, parse_i64, I64_MAX. split.
  - destruct t as [|c r]; [discriminate|]. destruct (N.eqb_spec c c_minus) as [->|Hn].
    + destruct (all_digits r) eqn:D; [|discriminate]. destruct (N.leb_spec (digits_value r) (9223372036854775807 + 1)) as [L|L]; [|discriminate].
      intro H. inversion H; subst. right. exists r. repeat split; auto. lia.
    + destruct (all_digits (c :: r)) eqn:D; [|discriminate].
      destruct (N.leb_spec (digits_value (c :: r)) 9223372036854775807) as [L|L]; [|discriminate].
      intro H. inversion H; subst. left. repeat split; auto. lia.
  - intros [[D [-> L]]|[r [-> [D [-> L]]]]].
    + destruct (digits_head_not_minus t D) as [c [t' [-> Hc]]]. rewrite Hc, D.
      destruct (N.leb_spec (digits_value (c :: t')) 9223372036854775807) as [L'|L']; [reflexivity|lia].
    + change (c_minus =? c_minus)%N with true. cbn iota. rewrite D.
      destruct (N.leb_spec (digits_value r) (9223372036854775807 + 1)) as [L'|L']; [reflexivity|lia].
Qed.
Lemma number_sound : tok_sound take_number into_number integer_text.
Proof.
  intros f l H. unfold take_number. fold number_char.
  pose proof (take_while_ok f l KNumber number_char H number_char_not_ws) as T. unfold number_char in T.
  destruct (take_while f l KNumber _) as [[t l']| | |]; auto.
  destruct T as [W [Ht [_ [[w [Hw E]] _]]]]. split; [exact W|]. unfold into_number.
  pose proof (or_error_spec f t MInteger (parse_signed (ct_text t)) Ht) as O.
  destruct (or_error f t MInteger (parse_signed (ct_text t))); auto. apply parse_signed_spec in O. eauto.
Qed.
Lemma integer_chars t z : integer_text t z -> t <> [] /\ forallb number_char t = true.
Proof.
  assert (K : forall s, forallb is_ascii_digit s = true -> forallb number_char s = true).
  { intros s Hs. rewrite forallb_forall in *. intros x Hx. unfold number_char. rewrite Hs by exact Hx. reflexivity. }
  intros [[D _]|[r [-> [D _]]]]; apply all_digits_inv in D as [Dn Df].
  - auto.
  - split; [discriminate|]. cbn. apply K. exact Df.
Qed.
Lemma stop_not_number r : stop r -> match r with c :: _ => number_char c = false | [] => True end.
Proof. destruct r; [auto|]. cbn. unfold stop_char, number_char, is_ws, is_ascii_digit, c_rparen, c_rbracket, c_slash, c_minus, c_dot. lia. Qed.
Lemma number_complete : tok_complete take_number into_number stop integer_text.
Proof.
  intros f l w x z r H E Hw Hz Hr. destruct (integer_chars x z Hz) as [Hn Hf].
  destruct (take_while_complete f l KNumber number_char w x r H E Hw number_char_not_ws Hn Hf (stop_not_number r Hr))
    as [t [l' [X1 [X2 [X3 [X4 _]]]]]].
  exists t, l'. split; [exact X1|]. split; [exact X2|]. split; [exact X3|]. unfold into_number. rewrite X4.
  apply parse_signed_spec in Hz. rewrite Hz. reflexivity.
Qed.

Lemma string_sound co : tok_sound (take_string co) (fun _ t => Ok (ct_text t)) string_text.
Proof.
  intros f l H. pose proof (take_string_ok co f l H) as T. destruct (take_string co f l) as [[t l']| | |]; auto.
  destruct T as [W [_ T]]. auto.
Qed.
Lemma stop_not_alnum f l a r : wf f l -> cl_input l = a ++ r -> stop r ->
  match r with x :: _ => is_ascii x = true /\ is_ascii_alnum x = false | [] => True end.
Proof.
  intros H E Hr. destruct (wf_ascii_app f l a r H E) as [_ A]. destruct r as [|x r]; [exact I|]. apply ascii_cons in A as [Ax _].
  split; [exact Ax|]. cbn in Hr.
  unfold stop_char, is_ws, is_ascii_alnum, is_ascii_alpha, is_ascii_upper, is_ascii_lower, is_ascii_digit, c_rparen, c_rbracket, c_slash in *. lia.
Qed.
Lemma string_complete co : tok_complete (take_string co) (fun _ t => Ok (ct_text t)) stop string_text.
Proof.
  intros f l w x s r H E Hw Hs Hr.
  assert (E' : cl_input l = (w ++ x) ++ r) by (rewrite E, app_assoc; reflexivity).
  destruct (take_string_complete co f l w x s r H E Hw Hs (stop_not_alnum f l (w ++ x) r H E' Hr)) as [t [l' [X1 [X2 [X3 [X4 _]]]]]].
  exists t, l'. split; [exact X1|]. split; [exact X2|]. split; [exact X3|]. rewrite X4. reflexivity.
Qed.

Definition a1_char (c : char) : bool := is_ascii_alnum c || str_in [c] [lit "!"; lit "'"; lit ":"; lit "$"].
Lemma a1_char_eq u c : is_ascii c = true -> is_a1_char u c = a1_char c.
Proof.
  intro H. unfold is_a1_char, a1_char. rewrite (ascii_not_ws_alnum u c H). unfold str_in. cbn [existsb lit str_eqb].
  change (N_of_ascii "!") with c_excl. change (N_of_ascii "'") with c_squote. change (N_of_ascii ":") with c_colon.
  change (N_of_ascii "$") with c_dollar. rewrite !andb_true_r, orb_false_r, !orb_assoc. reflexivity.
Qed.
Lemma a1_char_not_ws u c : is_a1_char u c = true -> is_ws c = false.
Proof.
  unfold is_a1_char. intro H. destruct (is_alnum u c) eqn:E; [apply (alnum_not_ws u); exact E|].
  cbn [orb] in H. unfold is_ws, c_excl, c_squote, c_colon, c_dollar in *. lia.
Qed.
Definition a1_conv (co : cell_oracle) (f : field) (t : ctoken) := or_error f t MRange (a1_canon co (ct_text t)).
Lemma a1_sound co : tok_sound (take_a1 co) (a1_conv co) (a1_text co).
Proof.
  intros f l H. unfold take_a1. pose proof (take_while_ok f l KA1 (is_a1_char (co_unicode co)) H (a1_char_not_ws _)) as T.
  destruct (take_while f l KA1 (is_a1_char (co_unicode co))) as [[t l']| | |]; auto.
  destruct T as [W [Ht [_ [[w [Hw E]] [Hn [Hf Ha]]]]]]. split; [exact W|]. unfold a1_conv.
  pose proof (or_error_spec f t MRange (a1_canon co (ct_text t)) Ht) as O.
  destruct (or_error f t MRange (a1_canon co (ct_text t))); auto. exists w, (ct_text t). split; [exact Hw|]. split; [exact E|].
  split; [exact Hn|]. split; [|exact O]. fold a1_char. unfold ascii in Ha. rewrite forallb_forall in *. intros c Hc.
  change (a1_char c = true). rewrite <- (a1_char_eq (co_unicode co)); auto.
Qed.
Lemma stop_not_a1 c : stop_char c = true -> a1_char c = false.
Proof.
  intro H. unfold a1_char, str_in. cbn [existsb lit str_eqb].
  change (N_of_ascii "!") with c_excl. change (N_of_ascii "'") with c_squote. change (N_of_ascii ":") with c_colon.
  change (N_of_ascii "$") with c_dollar.
  unfold stop_char, is_ws, is_ascii_alnum, is_ascii_alpha, is_ascii_upper, is_ascii_lower, is_ascii_digit, c_rparen, c_rbracket, c_slash, c_excl, c_squote, c_colon, c_dollar in *. lia.
Qed.
Lemma a1_complete co : tok_complete (take_a1 co) (a1_conv co) stop (a1_text co).
Proof.
  intros f l w x a r H E Hw [Hn [Hf Hc]] Hr.
  assert (E' : cl_input l = (w ++ x) ++ r) by (rewrite E, app_assoc; reflexivity).
  destruct (wf_ascii_app f l _ _ H E') as [A1 A2]. apply ascii_app in A1 as [_ A1].
  destruct (take_while_complete f l KA1 (is_a1_char (co_unicode co)) w x r H E Hw (a1_char_not_ws _) Hn) as [t [l' [X1 [X2 [X3 [X4 _]]]]]].
  - unfold ascii in A1. rewrite forallb_forall in *. intros c Hc'. rewrite a1_char_eq by auto. apply (Hf c Hc').
  - destruct r as [|c r]; [exact I|]. apply ascii_cons in A2 as [Ac _]. rewrite a1_char_eq by exact Ac. apply stop_not_a1. exact Hr.
  - exists t, l'. split; [exact X1|]. split; [exact X2|]. split; [exact X3|]. unfold a1_conv. rewrite X4, Hc. reflexivity.
Qed.

(** colours *)
Lemma color_sound co : tok_sound (take_color co) rgb_of_token color_text.
Proof.
  intros f l H. pose proof (take_color_ok co f l H) as T. destruct (take_color co f l) as [[t l']| | |]; auto.
  destruct T as [[W [w [Hw E]]] [Ht [Ha Hp]]]. split; [exact W|]. unfold rgb_of_token.
  pose proof (parse_rgb_spec (ct_text t) Ha Hp) as R. destruct (parse_rgb (ct_text t)) as [c| | |]; try contradiction.
  - exists w, (ct_text t). auto.
  - destruct (Ht rgb MColor) as [e' ->]. exact I.
Qed.
Lemma stop_not_hash c : stop_char c = true -> (c =? c_hash)%N = false.
Proof. unfold stop_char, is_ws, c_rparen, c_rbracket, c_slash, c_hash. lia. Qed.
Lemma color_chars t c : color_text t c -> ascii t /\ no_plus t.
Proof.
  assert (K : forall s, (forall x, In x s -> exists d, is_hex x d) -> ascii s /\ no_plus s).
  { intros s Hs. unfold ascii, no_plus. rewrite !forallb_forall. split; intros x Hx; destruct (Hs x Hx) as [d Hd];
      apply is_hex_facts in Hd as [_ [Ha [_ [Hp _]]]]; [exact Ha|]. destruct (N.eqb_spec x c_plus); [congruence|reflexivity]. }
  intros [H|[r [-> H]]]; apply hex_text_chars in H as [H _]; apply K in H as [Ha Hp]; [auto|].
  split; [apply ascii_cons; split; [reflexivity|exact Ha]|exact Hp].
Qed.
Lemma color_complete co : tok_complete (take_color co) rgb_of_token stop color_text.
Proof.
  intros f l w x c r H E Hw Hc Hr.
  assert (E' : cl_input l = (w ++ x) ++ r) by (rewrite E, app_assoc; reflexivity).
  pose proof (stop_not_alnum f l (w ++ x) r H E' Hr) as S.
  destruct (take_color_complete co f l w x c r H E Hw Hc) as [t [l' [X1 [X2 [X3 [X4 _]]]]]].
  { destruct r as [|y r]; [exact I|]. destruct S. split; [assumption|]. split; [assumption|]. apply stop_not_hash. exact Hr. }
  exists t, l'. split; [exact X1|]. split; [exact X2|]. split; [exact X3|]. unfold rgb_of_token. rewrite X4.
  destruct (color_chars x c Hc) as [A P]. pose proof (parse_rgb_spec x A P) as R.
  destruct (parse_rgb x) as [c'|e| |]; try contradiction.
  - rewrite (color_text_unique x c' c R Hc). reflexivity.
  - destruct (R c Hc).
Qed.

(** numbers without a sign *)
Definition unsigned_text (max : N) (t : str) (n : nat) : Prop := exists k, natural_text t k /\ (k <= max)%N /\ n = N.to_nat k.
Definition unsigned_conv (m : cell_message) (max : N) (f : field) (t : ctoken) := or_error f t m (parse_unsigned max (ct_text t)).
Lemma parse_unsigned_spec max t n : parse_unsigned max t = Some n <-> unsigned_text max t n.
Proof.
  unfold parse_unsigned, unsigned_text, natural_text. split.
  - destruct (all_digits t) eqn:D; [|discriminate]. destruct (N.leb_spec (digits_value t) max) as [L|L]; [|discriminate].
    intro H. inversion H. eauto 8.
  - intros [k [[D ->] [L ->]]]. rewrite D. destruct (N.leb_spec (digits_value t) max); [reflexivity|lia].
Qed.
Lemma unsigned_sound m max : tok_sound take_positive_number (unsigned_conv m max) (unsigned_text max).
Proof.
  intros f l H. unfold take_positive_number.
  pose proof (take_while_ok f l KPositiveNumber is_ascii_digit H digit_not_ws) as T.
  destruct (take_while f l KPositiveNumber is_ascii_digit) as [[t l']| | |]; auto.
  destruct T as [W [Ht [_ [[w [Hw E]] _]]]]. split; [exact W|]. unfold unsigned_conv.
  pose proof (or_error_spec f t m (parse_unsigned max (ct_text t)) Ht) as O.
  destruct (or_error f t m (parse_unsigned max (ct_text t))); auto. apply parse_unsigned_spec in O. eauto.
Qed.
Lemma unsigned_complete m max : tok_complete take_positive_number (unsigned_conv m max) stop (unsigned_text max).
Proof.
  intros f l w x n r H E Hw Hx Hr. pose proof Hx as [k [[D _] _]]. apply all_digits_inv in D as [Dn Df].
  destruct (take_while_complete f l KPositiveNumber is_ascii_digit w x r H E Hw digit_not_ws Dn Df (stop_not_digit r Hr))
    as [t [l' [X1 [X2 [X3 [X4 _]]]]]].
  exists t, l'. split; [exact X1|]. split; [exact X2|]. split; [exact X3|]. unfold unsigned_conv. rewrite X4.
  apply parse_unsigned_spec in Hx. rewrite Hx. reflexivity.
Qed.

(** words looked up in a table *)
Definition ident_char (u : unicode) (c : char) : bool := is_alnum u c || (c =? c_underscore)%N.
Lemma ident_char_eq u c : is_ascii c = true -> ident_char u c = word_char c.
Proof. intro H. unfold ident_char, word_char. rewrite ascii_not_ws_alnum by exact H. reflexivity. Qed.
Lemma ident_char_not_ws u c : ident_char u c = true -> is_ws c = false.
Proof.
  unfold ident_char. intro H. destruct (is_alnum u c) eqn:E; [apply (alnum_not_ws u); exact E|].
  cbn [orb] in H. unfold is_ws, c_underscore in *. lia.
Qed.
Definition word_text (t s : str) : Prop := t = s /\ word t.
Lemma word_sound co : tok_sound (take_identifier co) (fun _ t => Ok (ct_text t)) word_text.
Proof.
  intros f l H. unfold take_identifier.
  pose proof (take_while_ok f l KIdentifier (ident_char (co_unicode co)) H (ident_char_not_ws _)) as T. unfold ident_char in T.
  destruct (take_while f l KIdentifier _) as [[t l']| | |]; auto.
  destruct T as [W [Ht [_ [[w [Hw E]] [Hn [Hf Ha]]]]]]. split; [exact W|].
  exists w, (ct_text t). split; [exact Hw|]. split; [exact E|]. split; [reflexivity|]. split; [exact Hn|].
  unfold ascii in Ha. rewrite forallb_forall in *. intros c Hc. rewrite <- (ident_char_eq (co_unicode co)) by auto. apply Hf. exact Hc.
Qed.
Lemma identifier_tok co f l : wf f l -> match take_identifier co f l with Ok (t, _) => tok_at f t | _ => True end.
Proof.
  intro H. unfold take_identifier.
  pose proof (take_while_ok f l KIdentifier (ident_char (co_unicode co)) H (ident_char_not_ws _)) as T. unfold ident_char in T.
  destruct (take_while f l KIdentifier _) as [[t l']| | |]; auto. apply T.
Qed.
Lemma stop_not_word c : stop_char c = true -> word_char c = false.
Proof.
  unfold stop_char, word_char, is_ws, is_ascii_alnum, is_ascii_alpha, is_ascii_upper, is_ascii_lower, is_ascii_digit, c_rparen, c_rbracket, c_slash, c_underscore. lia.
Qed.
(** words also end before an opening parenthesis *)
Definition stop_word (r : str) : Prop := not_word_head r.
Lemma stop_is_stop_word r : stop r -> stop_word r.
Proof. destruct r; [auto|]. apply stop_not_word. Qed.
Lemma word_complete co : tok_complete (take_identifier co) (fun _ t => Ok (ct_text t)) stop_word word_text.
Proof.
  intros f l w x s r H E Hw [-> [Hn Hf]] Hr.
  assert (E' : cl_input l = (w ++ s) ++ r) by (rewrite E, app_assoc; reflexivity).
  destruct (wf_ascii_app f l _ _ H E') as [A1 A2]. apply ascii_app in A1 as [_ A1].
  destruct (take_while_complete f l KIdentifier (ident_char (co_unicode co)) w s r H E Hw (ident_char_not_ws _) Hn) as [t [l' [X1 [X2 [X3 [X4 _]]]]]].
  - unfold ascii in A1. rewrite forallb_forall in *. intros c Hc'. rewrite ident_char_eq by auto. apply (Hf c Hc').
  - destruct r as [|c r]; [exact I|]. apply ascii_cons in A2 as [Ac _]. rewrite ident_char_eq by exact Ac. exact Hr.
  - exists t, l'. split; [exact X1|]. split; [exact X2|]. split; [exact X3|]. rewrite X4. reflexivity.
Qed.
