From Verif Require Import Base BaseProofs Csvp SourceCode SourceSpec.

(** ** lines *)

Lemma strip_cr_id l : no_cr l = true -> strip_cr l = l.
Proof.
  intros H. unfold strip_cr. destruct (rev l) as [|c r] eqn:E; [reflexivity|].
  unfold no_cr in H. rewrite forallb_forall in H.
  specialize (H c ltac:(apply in_rev; rewrite E; left; auto)). apply negb_true_iff in H. now rewrite H.
Qed.

Lemma lines_aux_line l : forall cur rest, one_line l = true ->
  lines_aux (l ++ c_nl :: rest) cur = strip_cr (cur ++ l) :: lines_aux rest [].
Proof.
  induction l as [|c l IH]; intros cur rest H; cbn [app lines_aux].
  - rewrite N.eqb_refl, app_nil_r. reflexivity.
  - cbn [one_line forallb] in H. apply andb_true_iff in H as [Hc Hl]. apply negb_true_iff in Hc.
    rewrite Hc, (IH (cur ++ [c]) rest Hl), <- app_assoc. reflexivity.
Qed.

Lemma lines_aux_last l : forall cur, one_line l = true ->
  lines_aux l cur = match cur ++ l with [] => [] | _ => [cur ++ l] end.
Proof.
  induction l as [|c l IH]; intros cur H; cbn [lines_aux].
  - rewrite app_nil_r. reflexivity.
  - cbn [one_line forallb] in H. apply andb_true_iff in H as [Hc Hl]. apply negb_true_iff in Hc.
    rewrite Hc, (IH _ Hl), <- app_assoc. reflexivity.
Qed.


Definition line_ok (l : str) : bool := one_line l && no_cr l.

Lemma lines_of_unlines ls : forallb line_ok ls = true -> lines_of (unlines ls) = ls.
Proof.
  unfold lines_of. induction ls as [|l ls IH]; intros H; [reflexivity|].
  cbn [forallb] in H. apply andb_true_iff in H as [Hl Hls].
  unfold line_ok in Hl. apply andb_true_iff in Hl as [H1 H2].
  unfold unlines in *. cbn [map concat]. rewrite <- app_assoc. cbn [app].
  rewrite lines_aux_line by auto. cbn [app]. rewrite strip_cr_id by auto. now rewrite IH.
Qed.
Lemma lines_of_unlines_last ls l : forallb line_ok ls = true -> one_line l = true -> l <> [] ->
  lines_of (unlines ls ++ l) = ls ++ [l].
Proof.
  unfold lines_of. intros H Hl Hne. induction ls as [|x ls IH].
  - cbn [unlines map concat app]. rewrite lines_aux_last by auto. cbn [app]. destruct l; [congruence|reflexivity].
  - cbn [forallb] in H. apply andb_true_iff in H as [Hx Hls].
    unfold line_ok in Hx. apply andb_true_iff in Hx as [H1 H2].
    unfold unlines in *. cbn [map concat]. rewrite <- !app_assoc. cbn [app].
    rewrite lines_aux_line by auto. cbn [app]. rewrite strip_cr_id by auto. now rewrite IH.
Qed.

(** Every text is lines plus a last, possibly empty, unfinished line. *)
Lemma text_decompose s : exists ls l, s = unlines ls ++ l /\ forallb one_line ls = true /\ one_line l = true.
Proof.
  induction s as [|c s [ls [l [H1 [H2 H3]]]]]; [exists [], []; auto|].
  destruct (N.eqb_spec c c_nl) as [->|Hc].
  - exists ([] :: ls), l. cbn. rewrite H1. auto.
  - destruct ls as [|x ls].
    + exists [], (c :: l). cbn. apply N.eqb_neq in Hc. cbn in H1. subst s. rewrite Hc. cbn. auto.
    + exists ((c :: x) :: ls), l. apply N.eqb_neq in Hc. cbn [forallb one_line] in *.
      rewrite Hc. cbn. cbn in H1. rewrite H1. auto.
Qed.

Lemma no_cr_app a b : no_cr (a ++ b) = true <-> no_cr a = true /\ no_cr b = true.
Proof. apply forallb_app_true. Qed.

Lemma no_cr_unlines ls : no_cr (unlines ls) = true -> forallb no_cr ls = true.
Proof.
  unfold unlines. induction ls as [|l ls IH]; [reflexivity|]. cbn [map concat forallb].
  rewrite !no_cr_app. intros [[H1 _] H2]. rewrite H1. auto.
Qed.

Lemma join_unlines ls : ls <> [] -> join [c_nl] ls ++ [c_nl] = unlines ls.
Proof.
  unfold unlines. induction ls as [|l ls IH]; [congruence|]. intros _.
  destruct ls as [|m ls]; [cbn; now rewrite app_nil_r|].
  cbn [map concat] in *. change (join [c_nl] (l :: m :: ls)) with (l ++ [c_nl] ++ join [c_nl] (m :: ls)).
  rewrite <- !app_assoc. rewrite IH by discriminate. now rewrite <- !app_assoc.
Qed.

(** [lines] is a lossless split of any text without carriage returns, up to the final newline. *)
Lemma lines_join s : no_cr s = true ->
  s = join [c_nl] (lines_of s) \/ (s = join [c_nl] (lines_of s) ++ [c_nl] /\ lines_of s <> []).
Proof.
  intros H. destruct (text_decompose s) as [ls [l [H1 [H2 H3]]]].
  assert (Hok : forallb line_ok ls = true).
  { subst s. apply no_cr_app in H as [Hu _]. apply no_cr_unlines in Hu.
    rewrite forallb_forall in *. intros x Hx. unfold line_ok. now rewrite H2, Hu. }
  destruct l as [|c l].
  - rewrite app_nil_r in H1. rewrite H1, lines_of_unlines by auto.
    destruct ls as [|x ls]; [left; reflexivity|]. right.
    split; [|discriminate]. now rewrite join_unlines by discriminate.
  - left. rewrite H1, lines_of_unlines_last by (auto; discriminate).
    clear. induction ls as [|x ls IH]; [reflexivity|].
    unfold unlines in *. cbn [map concat app]. rewrite <- app_assoc.
    destruct (ls ++ [c :: l]) as [|a b] eqn:E; [destruct ls; discriminate|].
    change (join [c_nl] (x :: a :: b)) with (x ++ [c_nl] ++ join [c_nl] (a :: b)).
    rewrite <- app_assoc. now rewrite IH.
Qed.

(** ** the separator *)
Lemma strip_prefix_some p s r : strip_prefix p s = Some r <-> s = p ++ r.
Proof.
  revert s. induction p as [|x p IH]; intros s; cbn; [split; congruence|].
  destruct s as [|y s]; [split; discriminate|].
  destruct (N.eqb_spec x y) as [->|Hne].
  - rewrite IH. split; congruence.
  - split; [discriminate|congruence].
Qed.

Lemma separator_line_spec l : is_separator_line l = true <->
  exists a b, l = a ++ dashes ++ b /\ forallb is_ws a = true /\ forallb is_ws b = true.
Proof.
  unfold is_separator_line. split.
  - destruct (strip_prefix dashes (trim_start l)) as [r|] eqn:E; [|discriminate].
    apply strip_prefix_some in E. destruct (trim_start_suffix l) as [a [H1 H2]].
    intros H. exists a, r. rewrite E in H1. auto.
  - intros [a [b [-> [Ha Hb]]]]. rewrite trim_start_app_ws by auto.
    unfold dashes. cbn [app]. rewrite trim_start_nonws by reflexivity. cbn. exact Hb.
Qed.

Lemma position_of_some {A} (f : A -> bool) l p : position_of f l = Some p ->
  exists a x b, l = a ++ x :: b /\ length a = p /\ f x = true /\ forallb (fun y => negb (f y)) a = true.
Proof.
  revert p. induction l as [|x l IH]; cbn; [discriminate|]. intros p.
  destruct (f x) eqn:Hx.
  - intros [= <-]. exists [], x, l. auto.
  - destruct (position_of f l) as [q|]; [|discriminate]. cbn. intros [= <-].
    destruct (IH q eq_refl) as [a [y [b [H1 [H2 [H3 H4]]]]]].
    exists (x :: a), y, b. cbn. rewrite Hx, H4. subst. auto.
Qed.
Lemma position_of_none {A} (f : A -> bool) l : position_of f l = None ->
  forallb (fun y => negb (f y)) l = true.
Proof.
  induction l as [|x l IH]; cbn; [auto|]. destruct (f x); [discriminate|].
  destruct (position_of f l); [discriminate|]. auto.
Qed.
Lemma position_of_first {A} (f : A -> bool) a x b :
  forallb (fun y => negb (f y)) a = true -> f x = true -> position_of f (a ++ x :: b) = Some (length a).
Proof.
  intros Ha Hx. induction a as [|y a IH]; cbn; [now rewrite Hx|].
  cbn in Ha. apply andb_true_iff in Ha as [Hy Ha]. apply negb_true_iff in Hy. rewrite Hy, IH; auto.
Qed.

Lemma split_found input code sep csv :
  lines_of input = code ++ sep :: csv ->
  forallb (fun l => negb (is_separator_line l)) code = true -> is_separator_line sep = true ->
  let sc := source_code_new input in
  code_section sc = Some (join [c_nl] code) /\ csv_section sc = join [c_nl] csv
  /\ length_of_code_section sc = S (length code) /\ length_of_csv_section sc = length csv
  /\ sc_lines sc = length_of_code_section sc + length_of_csv_section sc.
Proof.
  intros Hl Hc Hs. unfold source_code_new. rewrite Hl, position_of_first by auto.
  cbn [code_section csv_section length_of_code_section length_of_csv_section sc_lines].
  rewrite firstn_app, Nat.sub_diag, firstn_all. cbn [firstn]. rewrite app_nil_r.
  rewrite skipn_app, skipn_all2 by lia. replace (length code + 1 - length code) with 1 by lia. cbn [skipn app].
  rewrite app_length. cbn [length]. repeat split; lia.
Qed.

Lemma split_not_found input :
  forallb (fun l => negb (is_separator_line l)) (lines_of input) = true ->
  let sc := source_code_new input in
  code_section sc = None /\ csv_section sc = input /\ length_of_code_section sc = 0.
Proof.
  intros H. unfold source_code_new.
  destruct (position_of is_separator_line (lines_of input)) as [p|] eqn:E; [|auto].
  destruct (position_of_some _ _ _ E) as [a [x [b [H1 [_ [H3 _]]]]]].
  rewrite forallb_forall in H. specialize (H x ltac:(rewrite H1; apply in_or_app; right; left; auto)).
  rewrite H3 in H. discriminate.
Qed.

(** Everything a user can observe about the split, for every text. *)
Lemma split_complete input :
  let sc := source_code_new input in
  match code_section sc with
  | None => csv_section sc = input /\ length_of_code_section sc = 0
            /\ forallb (fun l => negb (is_separator_line l)) (lines_of input) = true
  | Some code =>
      exists code_lines sep csv_lines,
        lines_of input = code_lines ++ sep :: csv_lines
        /\ forallb (fun l => negb (is_separator_line l)) code_lines = true
        /\ is_separator_line sep = true
        /\ code = join [c_nl] code_lines /\ csv_section sc = join [c_nl] csv_lines
        /\ length_of_code_section sc = S (length code_lines)
  end.
Proof.
  cbv zeta. destruct (position_of is_separator_line (lines_of input)) as [p|] eqn:E.
  - destruct (position_of_some _ _ _ E) as [a [x [b [H1 [H2 [H3 H4]]]]]].
    destruct (split_found input a x b H1 H4 H3) as [-> [-> [-> _]]].
    exists a, x, b. auto 10.
  - pose proof (position_of_none _ _ E) as H.
    destruct (split_not_found input H) as [-> [-> ->]]. auto.
Qed.

Lemma join_app_nl (a b : list str) x : a <> [] ->
  join [c_nl] (a ++ x :: b) = join [c_nl] a ++ [c_nl] ++ join [c_nl] (x :: b).
Proof.
  induction a as [|y a IH]; [congruence|]. intros _. destruct a as [|z a]; [reflexivity|].
  cbn [app] in *. change (join [c_nl] (y :: z :: a ++ x :: b)) with (y ++ [c_nl] ++ join [c_nl] (z :: a ++ x :: b)).
  change (join [c_nl] (y :: z :: a)) with (y ++ [c_nl] ++ join [c_nl] (z :: a)).
  rewrite IH by discriminate. now rewrite <- !app_assoc.
Qed.

(** Gluing the pieces around the separator line gives the file back (up to the final newline). *)
Lemma split_reassemble input code : no_cr input = true ->
  code_section (source_code_new input) = Some code ->
  exists sep, is_separator_line sep = true /\
  let body := (match length_of_code_section (source_code_new input) with 1 => [] | _ => code ++ [c_nl] end)
       ++ sep ++ (match length_of_csv_section (source_code_new input) with 0 => []
                  | _ => [c_nl] ++ csv_section (source_code_new input) end) in
  input = body \/ input = body ++ [c_nl].
Proof.
  intros Hcr Hcode. pose proof (split_complete input) as H. cbv zeta in H. rewrite Hcode in H.
  destruct H as [cl [sep [csl [H1 [H2 [H3 [H4 [H5 H6]]]]]]]].
  destruct (split_found input cl sep csl H1 H2 H3) as [_ [_ [_ [H7 _]]]].
  exists sep. split; [auto|]. cbv zeta. rewrite H5, H6, H7, H4.
  pose proof (lines_join input Hcr) as Hj. rewrite H1 in Hj.
  assert (Hb : join [c_nl] (cl ++ sep :: csl) =
     (match S (length cl) with 1 => [] | _ => join [c_nl] cl ++ [c_nl] end)
      ++ sep ++ (match length csl with 0 => [] | _ => [c_nl] ++ join [c_nl] csl end)).
  { destruct cl as [|y cl].
    - cbn [length app]. destruct csl as [|z csl]; [cbn; now rewrite app_nil_r|reflexivity].
    - rewrite join_app_nl by discriminate. cbn [length]. rewrite <- !app_assoc.
      destruct csl as [|z csl]; [cbn; now rewrite app_nil_r|reflexivity]. }
  rewrite <- Hb. tauto.
Qed.

(** ** highlight *)

Lemma shift_numbered w n (b : list str) : forall k,
  map (fun p : nat * str => numbered w (S n + fst p) (snd p)) (combine (seq k (length b)) b)
  = map (fun p : nat * str => numbered w (n + fst p) (snd p)) (combine (seq (S k) (length b)) b).
Proof.
  induction b as [|y b IHb]; intros k; [reflexivity|]. cbn [length seq combine map fst snd].
  f_equal; [f_equal; lia|]. apply (IHb (S k)).
Qed.

Lemma number_lines_app skip w : forall a b i n, i + length a <= skip ->
  number_lines skip w i n (a ++ b) =
  map (fun p => numbered w (n + fst p) (snd p)) (combine (seq 0 (length a)) a)
  ++ number_lines skip w (i + length a) (n + length a) b.
Proof.
  induction a as [|l a IH]; intros b i n H; cbn [app length seq combine map].
  - now rewrite !Nat.add_0_r.
  - cbn [number_lines]. cbn [length] in H.
    destruct (Nat.eqb_spec i skip) as [->|_]; [lia|].
    rewrite IH by lia. cbn [fst snd app]. rewrite shift_numbered, !Nat.add_succ_r, Nat.add_0_r.
    reflexivity.
Qed.

Lemma number_lines_after skip w : forall b i n, skip < i ->
  number_lines skip w i n b =
  map (fun p => numbered w (n + fst p) (snd p)) (combine (seq 0 (length b)) b).
Proof.
  induction b as [|l b IH]; intros i n H; [reflexivity|].
  cbn [number_lines length seq combine map fst snd].
  destruct (Nat.eqb_spec i skip) as [->|_]; [lia|]. rewrite IH by lia.
  rewrite shift_numbered, Nat.add_0_r. reflexivity.
Qed.


Lemma excerpt_combine w lines a n : a + n <= length lines ->
  map (fun p => numbered w (a + fst p) (snd p))
      (combine (seq 0 (length (firstn n (skipn a lines)))) (firstn n (skipn a lines)))
  = excerpt w lines a n.
Proof.
  intros H. unfold excerpt. apply nth_error_extl. intros i. rewrite !nth_error_map_opt.
  rewrite firstn_length, skipn_length. replace (Nat.min n (length lines - a)) with n by lia.
  destruct (Nat.lt_ge_cases i n) as [Hi|Hi].
  - assert (E1 : nth_error (seq a n) i = Some (a + i)).
    { rewrite (nth_error_nth' _ 0) by (rewrite seq_length; lia). now rewrite seq_nth by lia. }
    rewrite E1. cbn [option_map].
    assert (E2 : nth_error (combine (seq 0 n) (firstn n (skipn a lines))) i = Some (i, nth (a + i) lines [])).
    { rewrite (nth_error_nth' _ (0, [])) by
        (rewrite combine_length, seq_length, firstn_length, skipn_length; lia).
      rewrite combine_nth by (rewrite seq_length, firstn_length, skipn_length; lia).
      rewrite seq_nth by lia. cbn [Nat.add]. do 2 f_equal.
      rewrite <- (firstn_skipn a lines) at 2. rewrite app_nth2 by (rewrite firstn_length; lia).
      rewrite firstn_length. replace (a + i - Nat.min a (length lines)) with i by lia.
      rewrite <- (firstn_skipn n (skipn a lines)) at 2.
      rewrite app_nth1 by (rewrite firstn_length, skipn_length; lia). reflexivity. }
    rewrite E2. reflexivity.
  - assert (nth_error (combine (seq 0 n) (firstn n (skipn a lines))) i = None) as ->.
    { apply nth_error_None. rewrite combine_length, seq_length, firstn_length, skipn_length. lia. }
    assert (nth_error (seq a n) i = None) as ->; [|reflexivity].
    apply nth_error_None. rewrite seq_length. lia.
Qed.

Lemma highlight_shape sc pos :
  let ls := lines_of (original sc) in
  let n := line_number pos in
  let w := length (dec (N.of_nat (n + 3))) in
  highlight_line sc pos =
  if length ls <=? n then Ok []
  else Ok (excerpt w ls (n - 3) (n - (n - 3))
           ++ [numbered w n (nth n ls [])]
           ++ [[c_space] ++ pad_right w [c_space] ++ [c_colon; c_space]
               ++ repeat c_minus (line_offset pos) ++ [c_caret]]
           ++ excerpt w ls (S n) (Nat.min 3 (length ls - S n))).
Proof.
  cbv zeta. unfold highlight_line, LINES_IN_ERROR_CONTEXT.
  set (ls := lines_of (original sc)). set (n := line_number pos).
  destruct (Nat.leb_spec (length ls) n) as [Hle|Hlt]; [reflexivity|].
  unfold slice.
  assert (E1 : (n - 3 <=? n) && (n <=? length ls) = true).
  { apply andb_true_iff. split; apply Nat.leb_le; lia. }
  assert (E2 : (n + 1 <=? Nat.min (length ls) (n + 3 + 1)) && (Nat.min (length ls) (n + 3 + 1) <=? length ls) = true).
  { apply andb_true_iff. split; apply Nat.leb_le; lia. }
  rewrite E1, E2, (nth_error_nth' ls []) by auto.
  set (w := length (dec (N.of_nat (n + 3)))).
  set (before := firstn (n - (n - 3)) (skipn (n - 3) ls)).
  assert (Hb : length before = n - (n - 3)).
  { unfold before. rewrite firstn_length, skipn_length. lia. }
  f_equal. rewrite <- app_assoc.
  rewrite app_length. cbn [length]. rewrite Hb.
  rewrite number_lines_app by (rewrite Hb; lia).
  rewrite Hb. unfold before. rewrite <- Hb at 1. unfold before. rewrite excerpt_combine by lia.
  f_equal. cbn [app number_lines].
  destruct (Nat.eqb_spec (0 + (n - (n - 3))) (n - (n - 3) + 1)) as [?|_]; [lia|].
  replace (n - 3 + (n - (n - 3))) with n by lia.
  f_equal.
  destruct (Nat.eqb_spec (S (0 + (n - (n - 3)))) (n - (n - 3) + 1)) as [_|?]; [|lia].
  f_equal.
  rewrite number_lines_after by lia.
  replace (n + 1) with (S n) by lia.
  replace (Nat.min (length ls) (n + 3 + 1) - S n) with (Nat.min 3 (length ls - S n)) by lia.
  now rewrite excerpt_combine by lia.
Qed.

Lemma lines_of_cons_line l s : one_line l = true -> no_cr l = true ->
  lines_of (l ++ [c_nl] ++ s) = l :: lines_of s.
Proof.
  intros H1 H2. unfold lines_of. cbn [app]. rewrite lines_aux_line by auto. cbn [app].
  now rewrite strip_cr_id.
Qed.

Lemma empty_code_section s : no_cr s = true ->
  code_section (source_code_new (lit "---" ++ [c_nl] ++ s)) = Some [] /\
  (s = csv_section (source_code_new (lit "---" ++ [c_nl] ++ s))
   \/ s = csv_section (source_code_new (lit "---" ++ [c_nl] ++ s)) ++ [c_nl]).
Proof.
  intros H. pose proof (lines_of_cons_line (lit "---") s eq_refl eq_refl) as Hl.
  destruct (split_found _ [] (lit "---") (lines_of s) Hl eq_refl eq_refl) as [-> [-> _]].
  split; [reflexivity|]. destruct (lines_join s H) as [?|[? _]]; auto.
Qed.
