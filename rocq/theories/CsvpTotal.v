(** Facts about every input: totality, addresses, source positions. *)
From Coq Require Import Sorting.Sorted.
From Verif Require Import Base BaseProofs Csvp CsvpSpec CsvpProofs.

Definition cursor_of (pre : str) : cursor := fold_left (fun k c => advance c k) pre cursor_init.

(** The position the parser records for the char at index [i]. *)
Definition rec_pos (cfg : config) (inp : str) (i : nat) : position :=
  {| line_number := cur_line (cursor_of (firstn (S i) inp)) + lines_above cfg;
     line_offset := Z.to_nat (cur_off (cursor_of (firstn (S i) inp))) |}.

Lemma cursor_of_snoc pre c : cursor_of (pre ++ [c]) = advance c (cursor_of pre).
Proof. unfold cursor_of. now rewrite fold_left_app. Qed.

Lemma cursor_of_kv pre : kv (cursor_of pre).
Proof.
  induction pre as [|c pre IH] using rev_ind; [unfold kv; cbn; lia|].
  rewrite cursor_of_snoc. now apply kv_advance.
Qed.

Section Trace.
Variable cfg : config.
Variable inp : str.

Definition At (k : cursor) (s : str) : Prop := exists pre, inp = pre ++ s /\ k = cursor_of pre.

Lemma At_cons k c s : At k (c :: s) -> At (advance c k) s.
Proof.
  intros [pre [H1 H2]]. exists (pre ++ [c]). split.
  - now rewrite <- app_assoc.
  - now rewrite cursor_of_snoc, H2.
Qed.

(** index of the next char *)
Definition idx_of (s : str) : nat := length inp - length s.

Lemma At_idx k c s : At k (c :: s) ->
  nth_error inp (idx_of (c :: s)) = Some c /\ idx_of s = S (idx_of (c :: s))
  /\ cursor_position cfg (advance c k) = Some (rec_pos cfg inp (idx_of (c :: s)))
  /\ skipn (S (idx_of (c :: s))) inp = s.
Proof.
  intros [pre [H1 H2]]. unfold idx_of.
  assert (Hl : length inp - length (c :: s) = length pre).
  { rewrite H1, app_length. lia. }
  rewrite Hl. split; [|split; [|split]].
  - rewrite H1, nth_error_app2 by lia. now rewrite Nat.sub_diag.
  - rewrite H1, app_length. cbn. lia.
  - unfold rec_pos. assert (Hf : firstn (S (length pre)) inp = pre ++ [c]).
    { rewrite H1. rewrite firstn_app. rewrite firstn_all2 by lia.
      replace (S (length pre) - length pre) with 1 by lia. reflexivity. }
    rewrite Hf, cursor_of_snoc, <- H2.
    unfold cursor_position.
    assert (kv k) as Hk by (rewrite H2; apply cursor_of_kv).
    destruct (Z.ltb_spec (cur_off (advance c k)) 0) as [Hlt|_]; [|reflexivity].
    exfalso. unfold kv, advance in *. destruct (is_record_terminator c); cbn in Hlt; lia.
  - rewrite H1. rewrite skipn_app. rewrite skipn_all2 by lia.
    replace (S (length pre) - length pre) with 1 by lia. reflexivity.
Qed.

(** [raw] is spelled by the chars at [idxs] and [ps] are their recorded positions *)
Definition traced (raw : str) (idxs : list nat) (ps : list position) : Prop :=
  StronglySorted lt idxs /\ map (nth_error inp) idxs = map Some raw
  /\ ps = map (rec_pos cfg inp) idxs.

Definition fb_ok (fb : field_builder) (s : str) : Prop :=
  exists idxs, traced (fb_value fb) idxs (fb_positions fb)
               /\ Forall (fun i => i < idx_of s) idxs.

Definition field_ok (a : address) (f : field) : Prop :=
  f_address f = a /\ exists raw idxs, f_value f = trim raw /\ traced raw idxs (f_positions f).

Definition err_ok (e : csvp_error) : Prop :=
  exists i c, nth_error inp i = Some c /\ message e = InvalidTrailingCharacter c
    /\ err_position e = rec_pos cfg inp i /\ bad_input e = firstn 10 (skipn (S i) inp).

Lemma ssorted_snoc l i : StronglySorted lt l -> Forall (fun j => j < i) l ->
  StronglySorted lt (l ++ [i]).
Proof.
  induction l as [|x l IH]; cbn; intros H1 H2; [repeat constructor|].
  inversion H1; inversion H2; subst. constructor; [auto|].
  apply Forall_app. auto.
Qed.

Lemma fb_ok_mono fb c s : fb_ok fb (c :: s) -> fb_ok fb s.
Proof.
  intros [idxs [H1 H2]]. exists idxs. split; [auto|].
  eapply Forall_impl; [|exact H2]. unfold idx_of. cbn. lia.
Qed.

Lemma push_at fb k c s : At k (c :: s) -> fb_ok fb (c :: s) ->
  exists fb', fb_push cfg fb c (advance c k) = Ok fb' /\ fb_ok fb' s /\ fb_address fb' = fb_address fb.
Proof.
  intros HA [idxs [[H1 [H2 H3]] H4]]. destruct (At_idx _ _ _ HA) as [N1 [N2 [N3 _]]].
  unfold fb_push. rewrite N3. eexists. split; [reflexivity|]. split; [|reflexivity].
  exists (idxs ++ [idx_of (c :: s)]). cbn [fb_value fb_positions]. split; [split; [|split]|].
  - apply ssorted_snoc; auto.
  - rewrite !map_app, H2. cbn [map]. now rewrite N1.
  - rewrite map_app, H3. reflexivity.
  - rewrite N2. apply Forall_app. split; [|repeat constructor; lia].
    eapply Forall_impl; [|exact H4]. cbn. lia.
Qed.

Lemma fb_ok_new a s : fb_ok (fb_new a) s.
Proof. exists []. repeat split; constructor. Qed.

Lemma build_ok fb s : fb_ok fb s -> field_ok (fb_address fb) (fb_build fb).
Proof.
  intros [idxs [H _]]. split; [reflexivity|]. exists (fb_value fb), idxs. split; [reflexivity|exact H].
Qed.

Definition post (a : address) (s : str) (o : step field_result) : Prop :=
  match o with
  | Ok (fr, k', s') =>
      At k' s' /\
      match fr with
      | FSome f => field_ok a f /\ length s' <= length s
      | FLast f => field_ok a f /\ length s' <= length s
      | FEof => s' = []
      end
  | Err e => err_ok e
  | Panic => False
  | NoFuel => False
  end.

Lemma post_mono a s c o : post a s o -> post a (c :: s) o.
Proof.
  unfold post. destruct o as [[[[f|f|] k'] s']| | |]; cbn; auto; intros [? [? ?]]; intuition lia.
Qed.

Lemma unquoted_post n : forall fb k s, length s <= n -> At k s -> fb_ok fb s ->
  post (fb_address fb) s (parse_unquoted cfg fb k s).
Proof.
  induction n as [|n IH]; intros fb k s Hn HA HF.
  - destruct s; [|cbn in Hn; lia]. cbn. split; [auto|]. split; [now apply build_ok with []|lia].
  - destruct s as [|c r].
    { cbn. split; [auto|]. split; [now apply build_ok with []|lia]. }
    cbn [length] in Hn. cbn [parse_unquoted].
    pose proof (At_cons _ _ _ HA) as HA1.
    assert (Hcont : post (fb_address fb) (c :: r)
      (if (c =? separator cfg)%N then Ok (FSome (fb_build fb), advance c k, r)
        else if is_record_terminator c then Ok (FLast (fb_build fb), advance c k, r)
        else do fb' <- fb_push cfg fb c (advance c k); parse_unquoted cfg fb' (advance c k) r)).
    { destruct (c =? separator cfg)%N.
      { cbn. split; [auto|]. split; [now apply build_ok with (c :: r)|lia]. }
      destruct (is_record_terminator c).
      { cbn. split; [auto|]. split; [now apply build_ok with (c :: r)|lia]. }
      destruct (push_at fb k c r HA HF) as [fb' [-> [HF' Ha]]]. cbn [bind]. rewrite <- Ha.
      apply post_mono. apply IH; [lia|auto|auto]. }
    destruct (c =? c_backslash)%N; [|exact Hcont].
    destruct r as [|d r']; [exact Hcont|].
    destruct (d =? c_nl)%N; [|exact Hcont].
    apply post_mono, post_mono. apply IH; [cbn in Hn; lia|now apply At_cons|].
    apply fb_ok_mono with d. apply fb_ok_mono with c; auto.
Qed.

Lemma rest_post fb : forall s k, At k s -> fb_ok fb s ->
  post (fb_address fb) s (parse_rest_of_quoted cfg fb k s).
Proof.
  induction s as [|c r IH]; intros k HA HF.
  { cbn. split; [auto|]. split; [now apply build_ok with []|lia]. }
  cbn [parse_rest_of_quoted]. pose proof (At_cons _ _ _ HA) as HA1.
  destruct (is_ws c).
  { apply post_mono, IH; [auto|]. apply fb_ok_mono with c; auto. }
  destruct (c =? separator cfg)%N.
  { cbn. split; [auto|]. split; [now apply build_ok with (c :: r)|lia]. }
  destruct (At_idx _ _ _ HA) as [N1 [N2 [N3 N4]]].
  unfold parse_error. rewrite N3. cbn.
  exists (idx_of (c :: r)), c. cbn [message err_position bad_input]. rewrite N4. auto.
Qed.

Lemma quoted_post : forall s fb (esc : bool) k, At k s -> fb_ok fb s -> (esc = true -> s <> []) ->
  post (fb_address fb) s (parse_quoted cfg fb esc k s).
Proof.
  induction s as [|c r IH]; intros fb esc k HA HF He.
  { destruct esc; [exfalso; now apply He|]. cbn. split; [auto|]. split; [now apply build_ok with []|lia]. }
  cbn [parse_quoted]. pose proof (At_cons _ _ _ HA) as HA1.
  destruct (push_at fb k c r HA HF) as [fb' [Hp [HF' Ha]]]. rewrite Hp. cbn [bind].
  assert (Hpush : post (fb_address fb) (c :: r) (parse_quoted cfg fb' false (advance c k) r)).
  { rewrite <- Ha. apply post_mono, IH; auto. discriminate. }
  destruct esc; [exact Hpush|].
  destruct (c =? c_dquote)%N; [|exact Hpush].
  assert (HFr : fb_ok fb r) by (apply fb_ok_mono with c; auto).
  destruct r as [|q r']; [apply post_mono, rest_post; auto|].
  destruct (q =? c_dquote)%N.
  - apply post_mono, IH; auto. discriminate.
  - apply post_mono, rest_post; auto.
Qed.

(** [parse_field] consumes at least one char unless it reports the end of the input. *)
Definition post_strict (a : address) (s : str) (o : step field_result) : Prop :=
  match o with
  | Ok (fr, k', s') =>
      At k' s' /\
      match fr with
      | FSome f => field_ok a f /\ length s' < length s
      | FLast f => field_ok a f /\ length s' < length s
      | FEof => s' = []
      end
  | Err e => err_ok e
  | Panic => False
  | NoFuel => False
  end.

Lemma post_strict_of a s c o : post a s o -> post_strict a (c :: s) o.
Proof.
  unfold post, post_strict. destruct o as [[[[f|f|] k'] s']| | |]; cbn; auto;
    intros [? [? ?]]; intuition lia.
Qed.
Lemma post_strict_mono a s c o : post_strict a s o -> post_strict a (c :: s) o.
Proof.
  unfold post_strict. destruct o as [[[[f|f|] k'] s']| | |]; cbn; auto;
    intros [? [? ?]]; intuition lia.
Qed.

Lemma field_post n : forall fb k s, length s <= n -> At k s -> fb_ok fb s ->
  post_strict (fb_address fb) s (parse_field cfg fb k s).
Proof.
  induction n as [|n IH]; intros fb k s Hn HA HF.
  - destruct s; [|cbn in Hn; lia]. cbn. auto.
  - destruct s as [|c r]; [cbn; auto|].
    cbn [length] in Hn. cbn [parse_field].
    pose proof (At_cons _ _ _ HA) as HA1.
    assert (HFr : fb_ok fb r) by (apply fb_ok_mono with c; auto).
    destruct (negb (is_record_terminator c) && is_ws c).
    { apply post_strict_mono, IH; auto. lia. }
    destruct (c =? separator cfg)%N.
    { cbn. split; [auto|]. split; [now apply build_ok with (c :: r)|lia]. }
    destruct (is_record_terminator c).
    { cbn. split; [auto|]. split; [now apply build_ok with (c :: r)|lia]. }
    assert (Hcont : post_strict (fb_address fb) (c :: r)
      (if (c =? c_dquote)%N then parse_quoted cfg fb false (advance c k) r
       else do fb' <- fb_push cfg fb c (advance c k); parse_unquoted cfg fb' (advance c k) r)).
    { destruct (c =? c_dquote)%N.
      - apply post_strict_of, quoted_post; auto. discriminate.
      - destruct (push_at fb k c r HA HF) as [fb' [-> [HF' Ha]]]. cbn [bind]. rewrite <- Ha.
        apply post_strict_of. apply unquoted_post with (length r); auto. }
    destruct (c =? c_backslash)%N; [|exact Hcont].
    destruct r as [|d r']; [exact Hcont|].
    destruct (d =? c_nl)%N; [|exact Hcont].
    apply post_strict_mono, post_strict_mono. apply IH; [cbn in Hn; lia|now apply At_cons|].
    apply fb_ok_mono with d; auto.
Qed.

(** ** Records *)
Definition fields_ok (row : nat) (fs : list field) : Prop :=
  forall c f, nth_error fs c = Some f -> field_ok {| addr_x := c; addr_y := row |} f.

Lemma fields_ok_snoc row fs f : fields_ok row fs ->
  field_ok {| addr_x := length fs; addr_y := row |} f -> fields_ok row (fs ++ [f]).
Proof.
  intros H1 H2 c g Hg. destruct (Nat.lt_ge_cases c (length fs)) as [Hlt|Hge].
  - rewrite nth_error_app1 in Hg by lia. now apply H1.
  - rewrite nth_error_app2 in Hg by lia.
    destruct (c - length fs) as [|m] eqn:E.
    + cbn in Hg. injection Hg as <-. replace c with (length fs) by lia. exact H2.
    + cbn in Hg. now rewrite nth_error_nil in Hg.
Qed.

Definition rpost (row : nat) (s : str) (o : step record_result) : Prop :=
  match o with
  | Ok (rr, k', s') =>
      At k' s' /\
      match rr with
      | RComment => length s' < length s
      | RSome fs => fs <> [] /\ fields_ok row fs /\ length s' < length s
      | REof => s' = []
      end
  | Err e => err_ok e
  | Panic => False
  | NoFuel => False
  end.

Lemma fields_post row : forall fuel s acc k, length s < fuel -> At k s -> fields_ok row acc ->
  match parse_fields fuel cfg row (length acc) acc k s with
  | Ok (RSome fs, k', s') =>
      At k' s' /\ fs <> [] /\ fields_ok row fs /\ length s' <= length s
      /\ (acc = [] -> length s' < length s)
  | Ok (REof, k', s') => At k' s' /\ s' = []
  | Ok (RComment, _, _) => False
  | Err e => err_ok e
  | Panic | NoFuel => False
  end.
Proof.
  induction fuel as [|fuel IH]; intros s acc k Hf HA Hok; [lia|].
  cbn [parse_fields].
  pose proof (field_post (length s) (fb_new {| addr_x := length acc; addr_y := row |}) k s
                ltac:(lia) HA (fb_ok_new _ _)) as H.
  destruct (parse_field cfg (fb_new {| addr_x := length acc; addr_y := row |}) k s)
    as [[[[f|f|] k'] s']| | |]; cbn [post_strict bind] in *; auto.
  - destruct H as [HA' [Hfo Hl]].
    assert (Hok' : fields_ok row (acc ++ [f])) by now apply fields_ok_snoc.
    specialize (IH s' (acc ++ [f]) k' ltac:(lia) HA' Hok').
    rewrite app_length in IH. cbn [length] in IH.
    replace (length acc + 1) with (S (length acc)) in IH by lia.
    destruct (parse_fields fuel cfg row (S (length acc)) (acc ++ [f]) k' s')
      as [[[[| |fs] k2] s2]| | |]; auto.
    destruct IH as [? [? [? [? ?]]]].
    split; [auto|]. split; [auto|]. split; [auto|]. split; lia.
  - destruct H as [HA' [Hfo Hl]]. split; [auto|].
    split; [destruct acc; discriminate|]. split; [now apply fields_ok_snoc|]. split; lia.
  - destruct H as [HA' ->]. destruct acc as [|f0 acc']; [split; [exact HA'|reflexivity]|].
    split; [exact HA'|]. split; [discriminate|]. split; [exact Hok|].
    split; [cbn; lia|discriminate].
Qed.

Lemma ignore_line_at : forall s k, At k s ->
  At (fst (ignore_line k s)) (snd (ignore_line k s))
  /\ length (snd (ignore_line k s)) <= length s.
Proof.
  induction s as [|c r IH]; intros k HA; [cbn; auto|].
  cbn [ignore_line]. pose proof (At_cons _ _ _ HA) as HA1.
  destruct (c =? c_nl)%N; [cbn; auto|].
  destruct (IH _ HA1). split; [auto|cbn; lia].
Qed.

Lemma record_post row k s : At k s -> rpost row s (parse_record cfg row k s).
Proof.
  intros HA.
  assert (Hf : rpost row s (parse_fields (S (length s)) cfg row 0 [] k s)).
  { assert (H0 : fields_ok row []) by (intros c f H; now rewrite nth_error_nil in H).
    pose proof (fields_post row (S (length s)) s [] k ltac:(lia) HA H0) as H.
    cbn [length] in H. unfold rpost.
    destruct (parse_fields (S (length s)) cfg row 0 [] k s) as [[[[| |fs] k'] s']| | |]; auto.
    - tauto.
    - destruct H as [? [? [? [? ?]]]]. split; [auto|]. split; [auto|]. split; auto. }
  unfold parse_record. destruct s as [|c r]; [exact Hf|].
  destruct (c =? c_hash)%N eqn:Eh; [|exact Hf].
  pose proof (At_cons _ _ _ HA) as HA1.
  cbn [ignore_line]. apply N.eqb_eq in Eh. subst c. change (c_hash =? c_nl)%N with false. cbv iota.
  pose proof (ignore_line_at r _ HA1) as [H1 H2].
  destruct (ignore_line (advance c_hash k) r) as [k' s']. cbn in *. split; [auto|lia].
Qed.

Definition records_ok (rs : list (list field)) : Prop :=
  forall r fs, nth_error rs r = Some fs -> fs <> [] /\ fields_ok r fs.

Lemma records_ok_snoc rs fs : records_ok rs -> fs <> [] -> fields_ok (length rs) fs ->
  records_ok (rs ++ [fs]).
Proof.
  intros H1 H2 H3 r g Hg. destruct (Nat.lt_ge_cases r (length rs)) as [Hlt|Hge].
  - rewrite nth_error_app1 in Hg by lia. now apply H1.
  - rewrite nth_error_app2 in Hg by lia.
    destruct (r - length rs) as [|m] eqn:E.
    + cbn in Hg. injection Hg as <-. replace r with (length rs) by lia. auto.
    + cbn in Hg. now rewrite nth_error_nil in Hg.
Qed.

Lemma records_post : forall fuel s acc k, length s < fuel -> At k s -> records_ok acc ->
  match parse_records fuel cfg (length acc) acc k s with
  | Ok rs => records_ok rs
  | Err e => err_ok e
  | Panic | NoFuel => False
  end.
Proof.
  induction fuel as [|fuel IH]; intros s acc k Hf HA Hok; [lia|].
  cbn [parse_records].
  pose proof (record_post (length acc) k s HA) as H.
  destruct (parse_record cfg (length acc) k s) as [[[[| |fs] k'] s']| | |];
    cbn [rpost bind] in *; auto.
  - destruct H. apply IH; auto. lia.
  - destruct H as [HA' [Hne [Hfo Hl]]].
    specialize (IH s' (acc ++ [fs]) k' ltac:(lia) HA' (records_ok_snoc _ _ Hok Hne Hfo)).
    rewrite app_length in IH. cbn [length] in IH.
    replace (length acc + 1) with (S (length acc)) in IH by lia. exact IH.
Qed.

Lemma skip_newlines_at : forall s k, At k s -> At (fst (skip_newlines k s)) (snd (skip_newlines k s)).
Proof.
  induction s as [|c r IH]; intros k HA; [exact HA|].
  cbn [skip_newlines]. destruct (c =? c_nl)%N; [|exact HA]. apply IH. now apply At_cons.
Qed.

Lemma csvp_post :
  match csvp_parse cfg inp with
  | Ok rs => records_ok rs
  | Err e => err_ok e
  | Panic | NoFuel => False
  end.
Proof.
  unfold csvp_parse.
  assert (HA0 : At cursor_init inp) by (exists []; auto).
  pose proof (skip_newlines_at inp _ HA0) as HA.
  destruct (skip_newlines cursor_init inp) as [k s]. cbn in HA.
  apply (records_post (S (length s)) s [] k); [lia|auto|].
  intros r fs H. now rewrite nth_error_nil in H.
Qed.

End Trace.

(** ** The recorded position against the true one *)
Definition nl_count (s : str) : nat := length (filter (fun c => (c =? c_nl)%N) s).
Definition tail_len (s : str) : nat := length (fst (span (fun c => negb (c =? c_nl)%N) (rev s))).

Lemma nl_count_snoc s c : nl_count (s ++ [c]) = nl_count s + (if (c =? c_nl)%N then 1 else 0).
Proof. unfold nl_count. rewrite filter_app, app_length. cbn. destruct (c =? c_nl)%N; reflexivity. Qed.

Lemma tail_len_snoc s c : tail_len (s ++ [c]) = if (c =? c_nl)%N then 0 else S (tail_len s).
Proof.
  unfold tail_len. rewrite rev_app_distr. cbn.
  destruct (c =? c_nl)%N; cbn; [reflexivity|].
  destruct (span _ (rev s)). reflexivity.
Qed.

Lemma cursor_of_true s :
  cur_line (cursor_of s) = nl_count s /\
  cur_off (cursor_of s) = (Z.of_nat (tail_len s) + (if (nl_count s =? 0)%nat then -1 else 0))%Z.
Proof.
  induction s as [|c s [IH1 IH2]] using rev_ind; [cbn; auto|].
  rewrite cursor_of_snoc, nl_count_snoc, tail_len_snoc. unfold advance, is_record_terminator.
  destruct (c =? c_nl)%N; cbn [cur_line cur_off].
  - split; [lia|]. destruct (Nat.eqb_spec (nl_count s + 1) 0); lia.
  - rewrite Nat.add_0_r. split; [auto|]. rewrite IH2. destruct (nl_count s =? 0); lia.
Qed.

Lemma firstn_S_nth {A} (l : list A) i c : nth_error l i = Some c -> firstn (S i) l = firstn i l ++ [c].
Proof.
  revert l. induction i as [|i IH]; intros [|x l] H; cbn in H; try discriminate.
  - injection H as ->. reflexivity.
  - cbn. f_equal. now apply IH.
Qed.

Lemma rec_pos_true cfg inp i c : nth_error inp i = Some c ->
  rec_pos cfg inp i =
  if (c =? c_nl)%N
  then {| line_number := S (true_line inp i) + lines_above cfg; line_offset := 0 |}
  else {| line_number := true_line inp i + lines_above cfg;
          line_offset := true_column inp i + (if true_line inp i =? 0 then 0 else 1) |}.
Proof.
  intros H. unfold rec_pos. rewrite (firstn_S_nth _ _ _ H).
  destruct (cursor_of_true (firstn i inp ++ [c])) as [H1 H2]. rewrite H1, H2.
  rewrite nl_count_snoc, tail_len_snoc.
  change (nl_count (firstn i inp)) with (true_line inp i).
  change (tail_len (firstn i inp)) with (true_column inp i).
  destruct (c =? c_nl)%N; f_equal.
  - lia.
  - destruct (Nat.eqb_spec (true_line inp i + 1) 0); lia.
  - lia.
  - rewrite Nat.add_0_r. destruct (Nat.eqb_spec (true_line inp i) 0); lia.
Qed.

(** ** User-level corollaries *)
Lemma csvp_total cfg inp :
  (exists rs, csvp_parse cfg inp = Ok rs)
  \/ (exists e i c, csvp_parse cfg inp = Err e /\ nth_error inp i = Some c
        /\ message e = InvalidTrailingCharacter c
        /\ line_number (err_position e) =
             true_line inp i + (if (c =? c_nl)%N then 1 else 0) + lines_above cfg
        /\ bad_input e = firstn 10 (skipn (S i) inp)).
Proof.
  pose proof (csvp_post cfg inp) as H.
  destruct (csvp_parse cfg inp) as [rs|e| |]; try contradiction; [left; eauto|right].
  destruct H as [i [c [H1 [H2 [H3 H4]]]]]. exists e, i, c. split; [auto|]. split; [auto|].
  split; [auto|]. split; [|auto]. rewrite H3, (rec_pos_true _ _ _ _ H1).
  destruct (c =? c_nl)%N; cbn; lia.
Qed.

Lemma csvp_addresses cfg inp rs : csvp_parse cfg inp = Ok rs ->
  forall r fs, nth_error rs r = Some fs ->
    fs <> [] /\
    forall c f, nth_error fs c = Some f -> f_address f = {| addr_x := c; addr_y := r |}.
Proof.
  intros H r fs Hr. pose proof (csvp_post cfg inp) as P. rewrite H in P.
  destruct (P r fs Hr) as [H1 H2]. split; [auto|]. intros c f Hc. exact (proj1 (H2 c f Hc)).
Qed.

Lemma csvp_positions cfg inp rs : csvp_parse cfg inp = Ok rs ->
  forall r fs c f, nth_error rs r = Some fs -> nth_error fs c = Some f ->
  exists raw idxs,
    f_value f = trim raw /\ length raw = length idxs /\ length raw = length (f_positions f)
    /\ StronglySorted lt idxs
    /\ forall j i, nth_error idxs j = Some i ->
       exists ch, nth_error inp i = Some ch /\ nth_error raw j = Some ch /\
       position_for_offset f j = Some (
         if (ch =? c_nl)%N
         then {| line_number := S (true_line inp i) + lines_above cfg; line_offset := 0 |}
         else {| line_number := true_line inp i + lines_above cfg;
                 line_offset := true_column inp i + (if true_line inp i =? 0 then 0 else 1) |}).
Proof.
  intros H r fs c f Hr Hc. pose proof (csvp_post cfg inp) as P. rewrite H in P.
  destruct (P r fs Hr) as [_ H2]. destruct (H2 c f Hc) as [_ [raw [idxs [Hv [T1 [T2 T3]]]]]].
  assert (Hlen : length raw = length idxs).
  { apply (f_equal (@length _)) in T2. now rewrite !map_length in T2. }
  exists raw, idxs. split; [auto|]. split; [auto|]. split; [rewrite T3, map_length; auto|].
  split; [auto|]. intros j i Hj.
  assert (Hin : nth_error (map (nth_error inp) idxs) j = Some (nth_error inp i))
    by now apply map_nth_error.
  rewrite T2 in Hin.
  destruct (nth_error raw j) as [ch|] eqn:Er.
  - rewrite (map_nth_error Some j raw Er) in Hin. injection Hin as Hin.
    exists ch. split; [auto|]. split; [auto|].
    unfold position_for_offset.
    assert (Hjl : j < length idxs) by (apply nth_error_Some; congruence).
    rewrite T3, map_length. destruct (Nat.leb_spec (length idxs) j); [lia|].
    rewrite (map_nth_error _ _ _ Hj). f_equal. now apply rec_pos_true.
  - apply nth_error_None in Er. assert (j < length idxs) by (apply nth_error_Some; congruence). lia.
Qed.

(** ** Plain tables are documents *)
Definition table_doc (t : list (list str)) : document :=
  {| blank_lines := 0; items := map (fun r => Record_ (map (fun s => Bare [s]) r)) t;
     final_newline := match t with [] => false | _ => true end |}.

Lemma plain_field_inv sep s : plain_field sep s = true ->
  trim s = s /\ forallb (body_char sep) s = true
  /\ Forall (fun c => c <> c_dquote /\ c <> c_backslash /\ c <> c_hash) s.
Proof.
  unfold plain_field. rewrite andb_true_iff, str_eqb_eq. intros [H1 H2].
  split; [auto|]. rewrite forallb_forall in H1. split.
  - apply forallb_forall. intros c Hc. specialize (H1 c Hc). unfold body_char.
    rewrite !andb_true_iff in *. tauto.
  - apply Forall_forall. intros c Hc. specialize (H1 c Hc).
    rewrite !andb_true_iff, !negb_true_iff, !N.eqb_neq in H1. tauto.
Qed.

Lemma plain_field_bare sep s : plain_field sep s = true -> bare_ok sep [s] = true.
Proof.
  intros H. destruct (plain_field_inv _ _ H) as [_ [Hb Hq]].
  unfold bare_ok. cbn [forallb concat andb]. rewrite app_nil_r. unfold body_char in Hb. rewrite Hb. cbn [andb].
  unfold first_visible_is. destruct (trim_start s) as [|c r] eqn:E; [reflexivity|].
  destruct (trim_start_suffix s) as [a [Hs _]]. rewrite E in Hs.
  rewrite Forall_forall in Hq. specialize (Hq c ltac:(rewrite Hs; apply in_or_app; right; left; auto)).
  destruct Hq as [Hq _]. apply N.eqb_neq in Hq. now rewrite Hq.
Qed.

Lemma plain_no_backslash sep s : plain_field sep s = true -> ends_with c_backslash s = false.
Proof.
  intros H. destruct (plain_field_inv _ _ H) as [_ [_ Hq]]. unfold ends_with.
  destruct (rev s) as [|x r] eqn:E; [reflexivity|].
  rewrite Forall_forall in Hq. specialize (Hq x ltac:(apply in_rev; rewrite E; left; auto)).
  apply N.eqb_neq. tauto.
Qed.

Lemma plain_cells_ok sep r : plain_row sep r = true ->
  cells_ok sep (line_end_cell_ok sep) (map (fun s => Bare [s]) r) = true.
Proof.
  unfold plain_row. destruct r as [|s0 r0]; [discriminate|]. intros H.
  revert s0 H. induction r0 as [|s1 r1 IH]; intros s0 H.
  - cbn [forallb] in H. rewrite andb_true_r in H. cbn [map cells_ok line_end_cell_ok last].
    now rewrite (plain_field_bare _ _ H), (plain_no_backslash _ _ H).
  - cbn [forallb] in H. apply andb_true_iff in H as [H0 H].
    cbn [map cells_ok]. cbn [inner_cell_ok]. rewrite (plain_field_bare _ _ H0). cbn [andb].
    apply (IH s1). exact H.
Qed.

Lemma plain_row_not_comment sep r : sep_ok sep = true -> plain_row sep r = true ->
  not_comment sep (map (fun s => Bare [s]) r) = true.
Proof.
  intros Hs H. unfold not_comment. cbn [render_item].
  destruct r as [|s0 r0]; [discriminate|]. cbn [plain_row forallb] in H.
  apply andb_true_iff in H as [H0 _]. destruct (plain_field_inv _ _ H0) as [_ [_ Hq]].
  rewrite map_map. cbn [map render_cell join].
  destruct s0 as [|c s0].
  - destruct r0 as [|s1 r1]; [reflexivity|]. cbn. unfold sep_ok in Hs.
    rewrite !andb_true_iff in Hs. tauto.
  - inversion Hq as [|? ? Hc]; subst.
    assert (E : (c =? c_hash)%N = false) by (apply N.eqb_neq; tauto).
    destruct r0; cbn; now rewrite E.
Qed.

Lemma plain_table_doc sep t : sep_ok sep = true -> plain_table sep t = true ->
  doc_ok sep (table_doc t) = true /\ render sep (table_doc t) = render_table sep t
  /\ doc_values (table_doc t) = t.
Proof.
  intros Hs H. unfold plain_table in H. apply andb_true_iff in H as [Ht Hfirst].
  assert (Hrender : forall t0 : list (list str), t0 <> [] ->
     render_items sep (map (fun r => Record_ (map (fun s => Bare [s]) r)) t0) true = render_table sep t0).
  { induction t0 as [|r t0 IH]; [congruence|]. intros _.
    unfold render_items, render_table in *. cbn [map concat].
    assert (Er : render_item sep (Record_ (map (fun s => Bare [s]) r)) = join [sep] r).
    { cbn [render_item]. rewrite map_map. cbn. now rewrite map_id. }
    rewrite Er. destruct t0 as [|r1 t1].
    - cbn. now rewrite app_nil_r.
    - rewrite <- IH by discriminate. cbn [map]. rewrite join_cons, <- !app_assoc. reflexivity. }
  assert (Htext : render sep (table_doc t) = render_table sep t).
  { unfold render, table_doc. cbn [blank_lines items final_newline repeat app].
    destruct t as [|r t0]; [reflexivity|]. apply Hrender. discriminate. }
  split; [|split; [exact Htext|]].
  - unfold doc_ok. rewrite Hs. cbn [andb]. apply andb_true_iff. split.
    + unfold table_doc. cbn [items final_newline].
      assert (Hall : forall t0, t0 <> [] -> forallb (plain_row sep) t0 = true ->
         items_ok sep true (map (fun r => Record_ (map (fun s => Bare [s]) r)) t0) = true).
      { induction t0 as [|r t0 IH]; [congruence|]. intros _ Hr. cbn [forallb] in Hr.
        apply andb_true_iff in Hr as [Hr0 Hr].
        assert (Hi : item_ok sep (line_end_cell_ok sep) (Record_ (map (fun s => Bare [s]) r)) = true).
        { cbn [item_ok]. now rewrite plain_cells_ok, plain_row_not_comment. }
        destruct t0 as [|r1 t1]; [exact Hi|]. cbn [map items_ok]. cbn [map] in IH.
        rewrite Hi. cbn [andb]. apply IH; [discriminate|exact Hr]. }
      destruct t as [|r t0]; [reflexivity|]. apply Hall; [discriminate|exact Ht].
    + unfold render in Htext. cbn [table_doc blank_lines repeat app] in Htext. rewrite Htext.
      destruct t as [|r t0]; [reflexivity|]. cbn [forallb] in Ht. apply andb_true_iff in Ht as [Hr _].
      destruct r as [|s0 r0]; [discriminate|]. cbn [plain_row forallb] in Hr.
      apply andb_true_iff in Hr as [H0 _]. destruct (plain_field_inv _ _ H0) as [_ [Hb _]].
      unfold render_table. cbn [map concat].
      destruct s0 as [|c s0].
      * destruct r0 as [|s1 r1]; [discriminate|]. cbn.
        destruct (sep_ok_inv _ Hs) as [_ [_ [_ [_ Hn]]]]. apply N.eqb_neq in Hn. now rewrite Hn.
      * cbn [forallb] in Hb. apply andb_true_iff in Hb as [Hc _]. apply body_char_inv in Hc as [_ Hc].
        apply N.eqb_neq in Hc. destruct r0; cbn; now rewrite Hc.
  - unfold doc_values, table_doc. cbn [items]. clear Hfirst Htext Hrender.
    induction t as [|r t IH]; [reflexivity|]. cbn [forallb] in Ht. apply andb_true_iff in Ht as [Hr Ht].
    cbn [map flat_map item_values app]. f_equal; [|auto].
    rewrite map_map. cbn [cell_value concat]. clear IH Ht.
    assert (Hf : forallb (plain_field sep) r = true) by (destruct r; [discriminate|exact Hr]). clear Hr.
    induction r as [|s r IH]; [reflexivity|]. cbn [forallb] in Hf. apply andb_true_iff in Hf as [H0 Hf].
    cbn [map]. rewrite app_nil_r, (proj1 (plain_field_inv _ _ H0)). f_equal. auto.
Qed.

Lemma csvp_plain_table cfg t : sep_ok (separator cfg) = true -> plain_table (separator cfg) t = true ->
  exists rs, csvp_parse cfg (render_table (separator cfg) t) = Ok rs /\ values rs = t.
Proof.
  intros Hs Ht. destruct (plain_table_doc _ _ Hs Ht) as [H1 [H2 H3]].
  destruct (csvp_document cfg _ H1) as [rs [H4 H5]].
  rewrite H2 in H4. rewrite H3 in H5. eauto.
Qed.
