(** * CellProofs2: colours, quoted strings, dates, numbers. *)
From Verif Require Import Base BaseProofs Csvp Ast AstLexer AstParser AstLexerProofs Options CellLexer CellParser CellSpec CellProofs.
From Coq Require Import ZifyBool ZifyN.

(** ** Colours *)
Lemma hex_digit_iff c d : hex_digit c = Some d <-> is_hex c d.
Proof.
  unfold hex_digit, is_hex, is_ascii_digit.
  destruct ((48 <=? c)%N && (c <=? 57)%N) eqn:E1.
  { split; [intro H; inversion H; subst; left; lia|]. intros [[? ->]|[[? ->]|[? ->]]]; [reflexivity|lia|lia]. }
  destruct ((65 <=? c)%N && (c <=? 70)%N) eqn:E2.
  { split; [intro H; inversion H; subst; right; left; lia|]. intros [[? ->]|[[? ->]|[? ->]]]; [lia|reflexivity|lia]. }
  destruct ((97 <=? c)%N && (c <=? 102)%N) eqn:E3.
  { split; [intro H; inversion H; subst; right; right; lia|]. intros [[? ->]|[[? ->]|[? ->]]]; [lia|lia|reflexivity]. }
  split; [discriminate|]. intros [[? ->]|[[? ->]|[? ->]]]; lia.
Qed.
Lemma is_hex_facts c d : is_hex c d ->
  (d < 16)%N /\ is_ascii c = true /\ is_ascii_alnum c = true /\ c <> c_plus /\ c <> c_hash /\ is_ws c = false.
Proof.
  unfold is_hex, is_ascii, is_ascii_alnum, is_ascii_alpha, is_ascii_upper, is_ascii_lower, is_ascii_digit, is_ws, c_plus, c_hash.
  intros [[? ->]|[[? ->]|[? ->]]]; repeat split; try lia.
Qed.
Lemma ascii_len1 c : is_ascii c = true -> char_utf8_len c = 1.
Proof. unfold is_ascii, char_utf8_len. intros ->. reflexivity. Qed.
Lemma byte_split_ascii n s : ascii s -> byte_split n s = if n <=? length s then Some (firstn n s, skipn n s) else None.
Proof.
  intro H. destruct (Nat.leb_spec n (length s)) as [L|L].
  - apply byte_split_spec. split; [symmetry; apply firstn_skipn|].
    rewrite <- (firstn_skipn n s) in H. apply ascii_app in H as [H _].
    rewrite utf8_len_ascii by exact H. rewrite firstn_length. lia.
  - destruct (byte_split n s) as [[a b]|] eqn:E; [|reflexivity]. apply byte_split_spec in E as [-> E].
    apply ascii_app in H as [H _]. rewrite utf8_len_ascii in E by exact H. rewrite app_length in L. lia.
Qed.
Lemma u8_one c : c <> c_plus -> u8_from_hex [c; c] = match hex_digit c with Some d => Some (17 * d)%N | None => None end.
Proof.
  intro Hp. unfold u8_from_hex. destruct (N.eqb_spec c c_plus) as [E|_]; [congruence|]. cbn [hex_value].
  destruct (hex_digit c) as [d|] eqn:E; [|reflexivity]. apply hex_digit_iff, is_hex_facts in E as [Hd _].
  replace ((0 * 16 + d) * 16 + d)%N with (17 * d)%N by lia.
  destruct (N.leb_spec (17 * d) 255); [reflexivity|lia].
Qed.
Lemma u8_two a b : a <> c_plus -> u8_from_hex [a; b] =
  match hex_digit a, hex_digit b with Some x, Some y => Some (16 * x + y)%N | _, _ => None end.
Proof.
  intro Hp. unfold u8_from_hex. destruct (N.eqb_spec a c_plus) as [E|_]; [congruence|]. cbn [hex_value].
  destruct (hex_digit a) as [x|] eqn:Ea; [|reflexivity]. destruct (hex_digit b) as [y|] eqn:Eb; [|reflexivity].
  apply hex_digit_iff, is_hex_facts in Ea as [Hx _]. apply hex_digit_iff, is_hex_facts in Eb as [Hy _].
  replace ((0 * 16 + x) * 16 + y)%N with (16 * x + y)%N by lia.
  destruct (N.leb_spec (16 * x + y) 255); [reflexivity|lia].
Qed.

(** the body after the optional hash *)
Definition rgb_body (s : str) : str := match s with c :: r => if (c =? c_hash)%N then r else s | [] => s end.
Definition no_plus (s : str) : Prop := forallb (fun c => negb (c =? c_plus)%N) s = true.

Lemma parse_body_spec s : ascii s -> no_plus s ->
  match (if utf8_len s =? 6 then parse_slices 2 false s else if utf8_len s =? 3 then parse_slices 1 true s else Err tt) with
  | Ok c => hex_text s c
  | Err _ => forall c, ~ hex_text s c
  | Panic | NoFuel => False
  end.
Proof.
  intros Ha Hp. rewrite (utf8_len_ascii s Ha).
  assert (NH : forall n, length s = n -> n <> 3 -> n <> 6 -> forall c, ~ hex_text s c).
  { intros n E H3 H6 c H. inversion H; subst; cbn in *; lia. }
  destruct (Nat.eqb_spec (length s) 6) as [E6|N6].
  - destruct s as [|x1 [|x2 [|y1 [|y2 [|z1 [|z2 [|? ?]]]]]]]; try discriminate E6.
    unfold no_plus in Hp. cbn [forallb] in Hp. rewrite !andb_true_iff, !negb_true_iff, !N.eqb_neq in Hp.
    destruct Hp as [P1 [P2 [P3 [P4 [P5 [P6 _]]]]]].
    unfold ascii in Ha. cbn [forallb] in Ha. rewrite !andb_true_iff in Ha. destruct Ha as [A1 [A2 [A3 [A4 [A5 [A6 _]]]]]].
    unfold parse_slices.
    rewrite (byte_split_ascii 2 [x1;x2;y1;y2;z1;z2]) by (unfold ascii; cbn [forallb]; rewrite A1, A2, A3, A4, A5, A6; reflexivity).
    cbn [length Nat.leb firstn skipn]. unfold string_to_hex. rewrite u8_two by assumption.
    destruct (hex_digit x1) as [a1|] eqn:D1.
    2: { intros c H. inversion H; subst. match goal with H : is_hex x1 _ |- _ => apply hex_digit_iff in H; congruence end. }
    destruct (hex_digit x2) as [a2|] eqn:D2.
    2: { intros c H. inversion H; subst. match goal with H : is_hex x2 _ |- _ => apply hex_digit_iff in H; congruence end. }
    rewrite (byte_split_ascii 2 [y1;y2;z1;z2]) by (unfold ascii; cbn [forallb]; rewrite A3, A4, A5, A6; reflexivity).
    cbn [length Nat.leb firstn skipn]. rewrite u8_two by assumption.
    destruct (hex_digit y1) as [b1|] eqn:D3.
    2: { intros c H. inversion H; subst. match goal with H : is_hex y1 _ |- _ => apply hex_digit_iff in H; congruence end. }
    destruct (hex_digit y2) as [b2|] eqn:D4.
    2: { intros c H. inversion H; subst. match goal with H : is_hex y2 _ |- _ => apply hex_digit_iff in H; congruence end. }
    rewrite (byte_split_ascii 2 [z1;z2]) by (unfold ascii; cbn [forallb]; rewrite A5, A6; reflexivity).
    cbn [length Nat.leb firstn skipn]. rewrite u8_two by assumption.
    destruct (hex_digit z1) as [c1|] eqn:D5.
    2: { intros c H. inversion H; subst. match goal with H : is_hex z1 _ |- _ => apply hex_digit_iff in H; congruence end. }
    destruct (hex_digit z2) as [c2|] eqn:D6.
    2: { intros c H. inversion H; subst. match goal with H : is_hex z2 _ |- _ => apply hex_digit_iff in H; congruence end. }
    apply hex_digit_iff in D1, D2, D3, D4, D5, D6. constructor; assumption.
  - destruct (Nat.eqb_spec (length s) 3) as [E3|N3]; [|eapply NH; eauto].
    destruct s as [|x [|y [|z [|? ?]]]]; try discriminate E3.
    unfold no_plus in Hp. cbn [forallb] in Hp. rewrite !andb_true_iff, !negb_true_iff, !N.eqb_neq in Hp.
    destruct Hp as [P1 [P2 [P3 _]]].
    unfold ascii in Ha. cbn [forallb] in Ha. rewrite !andb_true_iff in Ha. destruct Ha as [A1 [A2 [A3 _]]].
    unfold parse_slices.
    rewrite (byte_split_ascii 1 [x;y;z]) by (unfold ascii; cbn [forallb]; rewrite A1, A2, A3; reflexivity).
    cbn [length Nat.leb firstn skipn]. unfold string_to_hex. cbn [app]. rewrite u8_one by assumption.
    destruct (hex_digit x) as [a|] eqn:D1.
    2: { intros c H. inversion H; subst. match goal with H : is_hex x _ |- _ => apply hex_digit_iff in H; congruence end. }
    rewrite (byte_split_ascii 1 [y;z]) by (unfold ascii; cbn [forallb]; rewrite A2, A3; reflexivity).
    cbn [length Nat.leb firstn skipn app]. rewrite u8_one by assumption.
    destruct (hex_digit y) as [b|] eqn:D2.
    2: { intros c H. inversion H; subst. match goal with H : is_hex y _ |- _ => apply hex_digit_iff in H; congruence end. }
    rewrite (byte_split_ascii 1 [z]) by (unfold ascii; cbn [forallb]; rewrite A3; reflexivity).
    cbn [length Nat.leb firstn skipn app]. rewrite u8_one by assumption.
    destruct (hex_digit z) as [c|] eqn:D3.
    2: { intros c0 H. inversion H; subst. match goal with H : is_hex z _ |- _ => apply hex_digit_iff in H; congruence end. }
    apply hex_digit_iff in D1, D2, D3. constructor; assumption.
Qed.
Lemma hex_text_head s c : hex_text s c -> exists x r, s = x :: r /\ x <> c_hash.
Proof.
  intro H. inversion H; subst; do 2 eexists; (split; [reflexivity|]);
    match goal with H : is_hex ?x _ |- ?x <> _ => apply is_hex_facts in H; tauto end.
Qed.
Lemma color_text_body s c : color_text s c <-> hex_text (rgb_body s) c.
Proof.
  unfold color_text. split.
  - intros [H|[r [-> H]]].
    + destruct (hex_text_head _ _ H) as [x [r [-> Hx]]]. cbn. destruct (N.eqb_spec x c_hash); [congruence|exact H].
    + cbn. exact H.
  - intro H. destruct s as [|x r]; [left; exact H|]. cbn in H. destruct (N.eqb_spec x c_hash) as [->|Hn].
    + right. eauto.
    + left. exact H.
Qed.
(** C42 in full for the texts the lexer can hand over (ASCII without a plus sign) *)
Theorem parse_rgb_spec s : ascii s -> no_plus s ->
  match parse_rgb s with
  | Ok c => color_text s c
  | Err _ => forall c, ~ color_text s c
  | Panic | NoFuel => False
  end.
Proof.
  intros Ha Hp. change (parse_rgb s) with
    (if utf8_len (rgb_body s) =? 6 then parse_slices 2 false (rgb_body s)
     else if utf8_len (rgb_body s) =? 3 then parse_slices 1 true (rgb_body s) else Err tt).
  assert (Ha' : ascii (rgb_body s)).
  { destruct s as [|x r]; [exact Ha|]. cbn. destruct (x =? c_hash)%N; [apply ascii_cons in Ha; tauto|exact Ha]. }
  assert (Hp' : no_plus (rgb_body s)).
  { destruct s as [|x r]; [exact Hp|]. unfold rgb_body. destruct (x =? c_hash)%N; [|exact Hp].
    unfold no_plus in *. cbn [forallb] in Hp. apply andb_true_iff in Hp. tauto. }
  pose proof (parse_body_spec (rgb_body s) Ha' Hp') as H.
  destruct (if utf8_len (rgb_body s) =? 6 then _ else _) as [c| | |]; try exact H.
  - apply color_text_body. exact H.
  - intros c Hc. apply color_text_body in Hc. exact (H c Hc).
Qed.
Lemma hex_text_unique s c c' : hex_text s c -> hex_text s c' -> c = c'.
Proof.
  intros H H'. inversion H; subst; inversion H'; subst;
  repeat match goal with H : is_hex _ _ |- _ => apply hex_digit_iff in H end; congruence.
Qed.
Lemma color_text_unique s c c' : color_text s c -> color_text s c' -> c = c'.
Proof. rewrite !color_text_body. apply hex_text_unique. Qed.

Lemma color_loop_spec u : forall s n h m, color_loop u s n h = Some m ->
  exists r, s = m ++ r /\ forallb (fun c => is_alnum u c || (c =? c_hash)%N) m = true.
Proof.
  induction s as [|c s IH]; intros n h m H; cbn [color_loop] in H.
  - inversion H. exists []. split; reflexivity.
  - destruct ((c =? c_hash)%N && negb h) eqn:E1.
    + destruct (color_loop u s n true) as [m'|] eqn:E; [|discriminate]. inversion H; subst. apply IH in E as [r [-> Hm]].
      exists r. split; [reflexivity|]. cbn. apply andb_true_iff in E1 as [-> _]. rewrite orb_true_r. exact Hm.
    + destruct (is_alnum u c) eqn:E2.
      * destruct (6 <? n); [discriminate|]. destruct (color_loop u s (S n) h) as [m'|] eqn:E; [|discriminate].
        inversion H; subst. apply IH in E as [r [-> Hm]]. exists r. split; [reflexivity|]. cbn. rewrite E2. exact Hm.
      * destruct ((n =? 3) || (n =? 6)); [|discriminate]. inversion H. exists (c :: s). split; reflexivity.
Qed.
Lemma color_loop_hex u : forall m r n h, (forall c, In c m -> exists d, is_hex c d) ->
  n + length m = 3 \/ n + length m = 6 ->
  match r with c :: _ => is_alnum u c = false /\ (c =? c_hash)%N = false | [] => True end ->
  color_loop u (m ++ r) n h = Some m.
Proof.
  induction m as [|c m IH]; intros r n h Hm Hn Hr.
  - destruct r as [|c r]; [reflexivity|]. destruct Hr as [Hc Hh]. cbn [app color_loop]. rewrite Hh, Hc. cbn in Hn.
    cbn [andb]. destruct Hn as [Hn|Hn]; rewrite Nat.add_0_r in Hn; subst n; reflexivity.
  - cbn [app color_loop]. destruct (Hm c (or_introl eq_refl)) as [d Hd]. apply is_hex_facts in Hd as [_ [Ha [Hal [_ [Hh _]]]]].
    destruct (N.eqb_spec c c_hash) as [?|_]; [congruence|]. cbn [andb].
    rewrite (ascii_not_ws_alnum u c Ha), Hal. cbn [length] in Hn.
    destruct (Nat.ltb_spec 6 n) as [L|L]; [lia|].
    rewrite IH; [reflexivity|intros; apply Hm; right; assumption|lia|exact Hr].
Qed.
Lemma no_plus_alnum u m : ascii m -> forallb (fun c => is_alnum u c || (c =? c_hash)%N) m = true -> no_plus m.
Proof.
  intro Ha. unfold no_plus. induction m as [|c m IH]; [reflexivity|]. apply ascii_cons in Ha as [Hc Ha].
  cbn [forallb]. intro H. apply andb_true_iff in H as [H1 H2]. rewrite IH by assumption. rewrite andb_true_r.
  rewrite ascii_not_ws_alnum in H1 by exact Hc.
  unfold is_ascii_alnum, is_ascii_alpha, is_ascii_upper, is_ascii_lower, is_ascii_digit, c_hash, c_plus in *. lia.
Qed.

Definition consumes (f : field) (l l' : clexer) (t : str) : Prop :=
  wf f l' /\ exists w, spaces w /\ cl_input l = w ++ t ++ cl_input l'.

Lemma take_color_ok co f l : wf f l ->
  match take_color co f l with
  | Ok (t, l') => consumes f l l' (ct_text t) /\ tok_at f t /\ ascii (ct_text t) /\ no_plus (ct_text t)
  | Err _ => True | Panic | NoFuel => False
  end.
Proof.
  intro H. unfold take_color. destruct (wf_take_ws f l H) as [W [w [Hw [E _]]]].
  destruct (color_loop (co_unicode co) (cl_input (take_whitespace l)) 0 false) as [m|] eqn:C.
  2: { edestruct (wf_unknown (A:=ctoken * clexer) f _ W) as [e ->]. exact I. }
  apply color_loop_spec in C as [r [S Hm]]. rewrite (wf_move f _ _ _ W S). cbn [bind].
  destruct (wf_step f _ _ _ W S) as [W' [_ Ha]].
  split; [split; [exact W'|exists w; split; [exact Hw|]; cbn [match_token ct_text cl_input]; rewrite E, S; reflexivity]|].
  split; [apply wf_token; exact W|]. split; [exact Ha|]. cbn [match_token ct_text]. eapply no_plus_alnum; eauto.
Qed.
Lemma hex_text_chars s c : hex_text s c -> (forall x, In x s -> exists d, is_hex x d) /\ (length s = 3 \/ length s = 6).
Proof.
  intro H. inversion H; subst; split.
  - intros x' [<-|[<-|[<-|[]]]]; eauto.
  - left. reflexivity.
  - intros x' [<-|[<-|[<-|[<-|[<-|[<-|[]]]]]]]; eauto.
  - right. reflexivity.
Qed.
Lemma take_color_complete co f l w t c r : wf f l -> cl_input l = w ++ t ++ r -> spaces w -> color_text t c ->
  match r with x :: _ => is_ascii x = true /\ is_ascii_alnum x = false /\ (x =? c_hash)%N = false | [] => True end ->
  exists tk l', take_color co f l = Ok (tk, l') /\ cl_input l' = r /\ wf f l' /\ ct_text tk = t /\ tok_at f tk.
Proof.
  intros H E Hw Ht Hr. unfold take_color. destruct (wf_take_ws f l H) as [W _].
  assert (Hr' : match r with x :: _ => is_alnum (co_unicode co) x = false /\ (x =? c_hash)%N = false | [] => True end).
  { destruct r as [|x r]; [exact I|]. destruct Hr as [A [B C]]. rewrite ascii_not_ws_alnum by exact A. auto. }
  assert (X : head_not_ws t /\ t <> [] /\ color_loop (co_unicode co) (t ++ r) 0 false = Some t).
  { destruct Ht as [Ht|[q [-> Ht]]].
    - destruct (hex_text_chars _ _ Ht) as [Hx Hn]. split; [|split].
      + destruct t as [|x t]; [exact I|]. destruct (Hx x (or_introl eq_refl)) as [d Hd]. apply is_hex_facts in Hd. cbn. tauto.
      + intros ->. cbn in Hn. lia.
      + apply color_loop_hex; auto.
    - destruct (hex_text_chars _ _ Ht) as [Hx Hn]. split; [reflexivity|]. split; [discriminate|].
      cbn [app color_loop]. change ((c_hash =? c_hash)%N && negb false) with true. cbn iota.
      rewrite color_loop_hex; auto. }
  destruct X as [Hh [Hn C]].
  assert (Ei : cl_input (take_whitespace l) = t ++ r).
  { eapply take_ws_reads; eauto. destruct t; [congruence|exact Hh]. }
  rewrite Ei, C. rewrite (wf_move f _ _ _ W Ei). cbn [bind]. do 2 eexists. split; [reflexivity|].
  split; [reflexivity|]. split; [apply (wf_step f _ _ _ W Ei)|]. split; [reflexivity|]. apply wf_token. exact W.
Qed.

(** ** Quoted strings *)
Lemma quoted_loop_spec : forall s e m n, quoted_loop s e = Some (m, n) ->
  exists b r, s = b ++ [c_squote] ++ r /\ n = length b + 1 /\
    if e then exists c b' m', b = c :: b' /\ m = c :: m' /\ quoted_body b' m' else quoted_body b m.
Proof.
  induction s as [|c s IH]; intros e m n H; cbn [quoted_loop] in H; [discriminate|].
  destruct e.
  - destruct (quoted_loop s false) as [[m' n']|] eqn:E; [|discriminate]. inversion H; subst.
    apply IH in E as [b [r [-> [-> Hb]]]]. exists (c :: b), r. split; [reflexivity|]. split; [reflexivity|].
    exists c, b, m'. auto.
  - destruct (N.eqb_spec c c_backslash) as [->|N1].
    + destruct (quoted_loop s true) as [[m' n']|] eqn:E; [|discriminate]. inversion H; subst.
      apply IH in E as [b [r [-> [-> [x [b' [m'' [-> [-> Hb]]]]]]]]].
      exists (c_backslash :: x :: b'), r. split; [reflexivity|]. split; [reflexivity|]. constructor. exact Hb.
    + destruct (N.eqb_spec c c_squote) as [->|N2].
      * inversion H; subst. exists [], s. split; [reflexivity|]. split; [reflexivity|constructor].
      * destruct (quoted_loop s false) as [[m' n']|] eqn:E; [|discriminate]. inversion H; subst.
        apply IH in E as [b [r [-> [-> Hb]]]]. exists (c :: b), r. split; [reflexivity|]. split; [reflexivity|].
        constructor; auto.
Qed.
Lemma quoted_loop_complete b s : quoted_body b s -> forall r, quoted_loop (b ++ [c_squote] ++ r) false = Some (s, length b + 1).
Proof.
  induction 1 as [|c t s N1 N2 H IH|c t s H IH]; intro r.
  - reflexivity.
  - cbn [app quoted_loop]. destruct (N.eqb_spec c c_backslash) as [?|_]; [congruence|].
    destruct (N.eqb_spec c c_squote) as [?|_]; [congruence|]. cbn [app] in IH. rewrite IH. reflexivity.
  - cbn [app quoted_loop]. rewrite N.eqb_refl. cbn [app] in IH. rewrite IH. reflexivity.
Qed.

Lemma take_single_quoted_ok f l : wf f l ->
  match take_single_quoted_string f l with
  | Ok (t, l') => wf f l' /\ tok_at f t /\ ct_kind t = KString
      /\ exists w q, spaces w /\ cl_input l = w ++ q ++ cl_input l' /\ quoted_text q (ct_text t)
  | Err _ => True | Panic | NoFuel => False
  end.
Proof.
  intro H. unfold take_single_quoted_string. destruct (wf_take_ws f l H) as [W [w [Hw [E _]]]].
  assert (U : forall m, match @unknown_string (ctoken * clexer) f (take_whitespace l) m with Ok _ => False | Err _ => True | Panic | NoFuel => False end).
  { intro m. destruct (wf_unknown (A:=ctoken * clexer) f _ W m) as [e ->]. exact I. }
  destruct (cl_input (take_whitespace l)) as [|c s] eqn:Ei.
  { match goal with |- match unknown_string _ _ ?m with _ => _ end => specialize (U m); destruct (unknown_string f (take_whitespace l) m) as [[? ?]| | |]; auto; contradiction end. }
  destruct (N.eqb_spec c c_squote) as [->|Hn].
  2: { match goal with |- match unknown_string _ _ ?m with _ => _ end => specialize (U m); destruct (unknown_string f (take_whitespace l) m) as [[? ?]| | |]; auto; contradiction end. }
  destruct (quoted_loop s false) as [[m n]|] eqn:Q.
  2: { match goal with |- match unknown_string _ _ ?m with _ => _ end => specialize (U m); destruct (unknown_string f (take_whitespace l) m) as [[? ?]| | |]; auto; contradiction end. }
  apply quoted_loop_spec in Q as [b [r [-> [-> Hb]]]].
  assert (Eq : cl_input (take_whitespace l) = ([c_squote] ++ b ++ [c_squote]) ++ r).
  { rewrite Ei. rewrite <- !app_assoc. reflexivity. }
  destruct (wf_step f _ _ _ W Eq) as [W' [Lu Ha]].
  assert (M : @move_input cell_error (take_whitespace l) (S (length b + 1)) = Ok {| cl_input := r; cl_offset := cl_offset (take_whitespace l) + utf8_len ([c_squote] ++ b ++ [c_squote]) |}).
  { rewrite <- (wf_move f _ _ _ W Eq). f_equal. rewrite Lu. cbn [app length]. rewrite app_length. reflexivity. }
  rewrite M. cbn [bind]. split; [exact W'|]. split; [apply wf_token; exact W|]. split; [reflexivity|].
  exists w, ([c_squote] ++ b ++ [c_squote]). split; [exact Hw|]. split; [rewrite E; cbn [cl_input]; rewrite <- Eq, Ei; reflexivity|].
  exists b. split; [reflexivity|exact Hb].
Qed.
Lemma take_single_quoted_complete f l w q s r : wf f l -> cl_input l = w ++ q ++ r -> spaces w -> quoted_text q s ->
  exists t l', take_single_quoted_string f l = Ok (t, l') /\ cl_input l' = r /\ wf f l' /\ ct_text t = s
    /\ ct_kind t = KString /\ tok_at f t.
Proof.
  intros H E Hw [b [-> Hb]]. unfold take_single_quoted_string. destruct (wf_take_ws f l H) as [W _].
  assert (Eq : cl_input (take_whitespace l) = ([c_squote] ++ b ++ [c_squote]) ++ r).
  { eapply take_ws_reads; eauto. reflexivity. }
  rewrite Eq. rewrite <- !app_assoc. cbn [app]. change (c_squote =? c_squote)%N with true. cbn iota.
  pose proof (quoted_loop_complete b s Hb r) as Q. cbn [app] in Q. rewrite Q.
  destruct (wf_step f _ _ _ W Eq) as [W' [Lu Ha]].
  assert (M : @move_input cell_error (take_whitespace l) (S (length b + 1)) = Ok {| cl_input := r; cl_offset := cl_offset (take_whitespace l) + utf8_len ([c_squote] ++ b ++ [c_squote]) |}).
  { rewrite <- (wf_move f _ _ _ W Eq). f_equal. rewrite Lu. cbn [app length]. rewrite app_length. reflexivity. }
  rewrite M. cbn [bind]. do 2 eexists. split; [reflexivity|]. split; [reflexivity|]. split; [exact W'|].
  split; [reflexivity|]. split; [reflexivity|]. apply wf_token. exact W.
Qed.

Lemma alnum_not_ws u c : is_alnum u c = true -> is_ws c = false.
Proof.
  unfold is_alnum. destruct (is_ascii c) eqn:E; [|intro H; apply andb_true_iff in H as [H _]; apply negb_true_iff in H; exact H].
  unfold is_ascii_alnum, is_ascii_alpha, is_ascii_upper, is_ascii_lower, is_ascii_digit, is_ws. lia.
Qed.
Lemma forallb_ascii_alnum u m : ascii m -> forallb (is_alnum u) m = forallb is_ascii_alnum m.
Proof.
  induction m as [|c m IH]; [reflexivity|]. intro H. apply ascii_cons in H as [Hc Ha]. cbn [forallb].
  rewrite ascii_not_ws_alnum, IH by assumption. reflexivity.
Qed.
Lemma take_string_ok co f l : wf f l ->
  match take_string co f l with
  | Ok (t, l') => wf f l' /\ tok_at f t
      /\ exists w q, spaces w /\ cl_input l = w ++ q ++ cl_input l' /\ string_text q (ct_text t)
  | Err _ => True | Panic | NoFuel => False
  end.
Proof.
  intro H. unfold take_string. destruct (wf_take_ws f l H) as [W [w [Hw [E _]]]].
  assert (K : match take_while f (take_whitespace l) KString (is_alnum (co_unicode co)) with
              | Ok (t, l') => wf f l' /\ tok_at f t
                 /\ exists w q, spaces w /\ cl_input l = w ++ q ++ cl_input l' /\ string_text q (ct_text t)
              | Err _ => True | Panic | NoFuel => False end).
  { pose proof (take_while_ok f (take_whitespace l) KString (is_alnum (co_unicode co)) W (alnum_not_ws _)) as T.
    destruct (take_while f (take_whitespace l) KString (is_alnum (co_unicode co))) as [[t l']| | |]; try exact T.
    destruct T as [W' [Ht [_ [[w2 [Hw2 E2]] [Hne [Hall Has]]]]]]. split; [exact W'|]. split; [exact Ht|].
    exists (w ++ w2), (ct_text t). split; [apply spaces_app; auto|]. split; [rewrite E, E2, <- app_assoc; reflexivity|].
    right. split; [reflexivity|]. split; [exact Hne|]. rewrite <- (forallb_ascii_alnum (co_unicode co)); assumption. }
  destruct (cl_input (take_whitespace l)) as [|c s] eqn:Ei; [exact K|].
  destruct (c =? c_squote)%N; [|exact K].
  pose proof (take_single_quoted_ok f (take_whitespace l) W) as T.
  destruct (take_single_quoted_string f (take_whitespace l)) as [[t l']| | |]; try exact T.
  destruct T as [W' [Ht [_ [w2 [q [Hw2 [E2 Hq]]]]]]]. split; [exact W'|]. split; [exact Ht|].
  exists (w ++ w2), q. split; [apply spaces_app; auto|]. split; [rewrite E, <- Ei, E2, <- app_assoc; reflexivity|]. left. exact Hq.
Qed.
Lemma take_string_complete co f l w q s r : wf f l -> cl_input l = w ++ q ++ r -> spaces w -> string_text q s ->
  match r with x :: _ => is_ascii x = true /\ is_ascii_alnum x = false | [] => True end ->
  exists t l', take_string co f l = Ok (t, l') /\ cl_input l' = r /\ wf f l' /\ ct_text t = s /\ tok_at f t.
Proof.
  intros H E Hw Hq Hr. unfold take_string. destruct (wf_take_ws f l H) as [W _].
  destruct Hq as [Hq|[-> [Hne Hall]]].
  - pose proof Hq as [b [Eq Hb]].
    assert (Ei : cl_input (take_whitespace l) = q ++ r).
    { eapply take_ws_reads; eauto. rewrite Eq. reflexivity. }
    assert (Ei' : cl_input (take_whitespace l) = [] ++ q ++ r) by exact Ei.
    destruct (take_single_quoted_complete f (take_whitespace l) [] q s r W Ei' eq_refl Hq) as [t [l' [X1 [X2 [X3 [X4 [X5 X6]]]]]]].
    rewrite Ei, Eq. cbn [app]. change (c_squote =? c_squote)%N with true. cbn iota. eauto 8.
  - assert (Ha : ascii s).
    { destruct H as [Ha _]. rewrite E in Ha. apply ascii_app in Ha as [_ Ha]. apply ascii_app in Ha. tauto. }
    assert (Hh : head_not_ws (s ++ r)).
    { destruct s as [|c s]; [congruence|]. apply ascii_cons in Ha as [Hc _]. cbn [forallb] in Hall.
      apply andb_true_iff in Hall as [Hall _]. cbn. apply (alnum_not_ws (co_unicode co)). rewrite ascii_not_ws_alnum; assumption. }
    assert (Ei : cl_input (take_whitespace l) = s ++ r) by (eapply take_ws_reads; eauto).
    assert (Ei' : cl_input (take_whitespace l) = [] ++ s ++ r) by exact Ei.
    destruct (take_while_complete f (take_whitespace l) KString (is_alnum (co_unicode co)) [] s r W Ei' eq_refl (alnum_not_ws _) Hne)
      as [t [l' [X1 [X2 [X3 [X4 [X5 X6]]]]]]].
    + rewrite forallb_ascii_alnum; assumption.
    + destruct r as [|x r]; [exact I|]. destruct Hr. rewrite ascii_not_ws_alnum; assumption.
    + rewrite Ei. destruct s as [|c s]; [congruence|]. cbn [app].
      assert (Hc : (c =? c_squote)%N = false).
      { cbn [forallb] in Hall. apply andb_true_iff in Hall as [Hall _].
        unfold is_ascii_alnum, is_ascii_alpha, is_ascii_upper, is_ascii_lower, is_ascii_digit, c_squote in *. lia. }
      rewrite Hc. rewrite X1. eauto 8.
Qed.
