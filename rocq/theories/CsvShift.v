(** * CsvShift: lines above the spreadsheet only move the positions. *)
From Verif Require Import Base BaseProofs Csvp.

Section Shift.
  Variables (sep : char) (d : nat).
  Let cfg0 : config := {| separator := sep; lines_above := 0 |}.
  Let cfg : config := {| separator := sep; lines_above := d |}.
  Definition shift_pos (p : position) : position := {| line_number := line_number p + d; line_offset := line_offset p |}.
  Definition shift_fb (fb : field_builder) : field_builder :=
    {| fb_address := fb_address fb; fb_value := fb_value fb; fb_positions := map shift_pos (fb_positions fb) |}.
  Definition shift_field (f : field) : field :=
    {| f_address := f_address f; f_value := f_value f; f_positions := map shift_pos (f_positions f) |}.
  Definition shift_fr (r : field_result) : field_result := match r with FSome f => FSome (shift_field f) | FLast f => FLast (shift_field f) | FEof => FEof end.
  Definition shift_rr (r : record_result) : record_result := match r with RComment => RComment | REof => REof | RSome fs => RSome (map shift_field fs) end.
  Definition shift_err (e : csvp_error) : csvp_error := {| bad_input := bad_input e; message := message e; err_position := shift_pos (err_position e) |}.
  Definition shift_out {A B} (g : A -> B) (x : outcome csvp_error A) : outcome csvp_error B :=
    match x with Ok a => Ok (g a) | Err e => Err (shift_err e) | Panic => Panic | NoFuel => NoFuel end.
  Definition shift_step {A B} (g : A -> B) (x : step A) : step B := shift_out (fun '(a, k, s) => (g a, k, s)) x.

  Lemma shift_cursor k : cursor_position cfg k = option_map shift_pos (cursor_position cfg0 k).
  Proof. unfold cursor_position. destruct (_ <? _)%Z; cbn [option_map cfg cfg0 lines_above shift_pos line_number line_offset]; [reflexivity|]. rewrite Nat.add_0_r. reflexivity. Qed.
  Lemma shift_error {A B} (g : A -> B) m k s : parse_error cfg m k s = shift_out g (parse_error cfg0 m k s).
  Proof. unfold parse_error. rewrite shift_cursor. destruct (cursor_position cfg0 k); reflexivity. Qed.
  Lemma shift_push fb c k : fb_push cfg (shift_fb fb) c k = shift_out shift_fb (fb_push cfg0 fb c k).
  Proof. unfold fb_push. rewrite shift_cursor. destruct (cursor_position cfg0 k); cbn [option_map shift_out]; [|reflexivity]. unfold shift_fb at 4. cbn [fb_positions fb_address fb_value]. rewrite map_app. reflexivity. Qed.
  Lemma shift_build fb : fb_build (shift_fb fb) = shift_field (fb_build fb).
  Proof. reflexivity. Qed.
  Lemma shift_bind {A B C D} (f : A -> B) (g : C -> D) x y k k' : x = shift_out f y -> (forall a, k (f a) = shift_out g (k' a)) -> bind x k = shift_out g (bind y k').
  Proof. intros -> H. destruct y; cbn [bind shift_out]; auto. Qed.

  Lemma shift_unquoted n : forall fb k s, length s <= n -> parse_unquoted cfg (shift_fb fb) k s = shift_step shift_fr (parse_unquoted cfg0 fb k s).
  Proof.
    induction n as [|n IH]; intros fb k [|c r] L; cbn [length] in L; try lia; try reflexivity. cbn [parse_unquoted]. cbn [separator cfg cfg0].
    assert (X : (if (c =? sep)%N then Ok (FSome (fb_build (shift_fb fb)), advance c k, r)
       else if is_record_terminator c then Ok (FLast (fb_build (shift_fb fb)), advance c k, r)
       else do fb' <- fb_push cfg (shift_fb fb) c (advance c k); parse_unquoted cfg fb' (advance c k) r)
      = shift_step shift_fr (if (c =? sep)%N then Ok (FSome (fb_build fb), advance c k, r)
       else if is_record_terminator c then Ok (FLast (fb_build fb), advance c k, r)
       else do fb' <- fb_push cfg0 fb c (advance c k); parse_unquoted cfg0 fb' (advance c k) r)).
    { destruct (c =? sep)%N; [reflexivity|]. destruct (is_record_terminator c); [reflexivity|].
      eapply shift_bind; [apply shift_push|]. intro a. apply IH. lia. }
    destruct (c =? c_backslash)%N; [|exact X]. destruct r as [|m r']; [exact X|]. destruct (m =? c_nl)%N; [|exact X].
    apply IH. cbn [length] in L. lia.
  Qed.
  Lemma shift_rest fb : forall s k, parse_rest_of_quoted cfg (shift_fb fb) k s = shift_step shift_fr (parse_rest_of_quoted cfg0 fb k s).
  Proof.
    induction s as [|c r IH]; intro k; [reflexivity|]. cbn [parse_rest_of_quoted]. destruct (is_ws c); [apply IH|]. cbn [separator cfg cfg0].
    destruct (c =? sep)%N; [reflexivity|]. apply shift_error.
  Qed.
  Lemma shift_quoted : forall s fb e k, parse_quoted cfg (shift_fb fb) e k s = shift_step shift_fr (parse_quoted cfg0 fb e k s).
  Proof.
    induction s as [|c r IH]; intros fb e k; cbn [parse_quoted]; [destruct e; [apply shift_error|reflexivity]|].
    destruct e; [eapply shift_bind; [apply shift_push|]; intro a; apply IH|].
    destruct (c =? c_dquote)%N; [|eapply shift_bind; [apply shift_push|]; intro a; apply IH].
    destruct r as [|q r]; [apply shift_rest|]. destruct (q =? c_dquote)%N; [apply IH|apply shift_rest].
  Qed.
  Lemma shift_parse_field n : forall fb k s, length s <= n -> parse_field cfg (shift_fb fb) k s = shift_step shift_fr (parse_field cfg0 fb k s).
  Proof.
    induction n as [|n IH]; intros fb k [|c r] L; cbn [length] in L; try lia; try reflexivity. cbn [parse_field]. cbn [separator cfg cfg0].
    destruct (negb _ && _); [apply IH; lia|]. destruct (c =? sep)%N; [reflexivity|]. destruct (is_record_terminator c); [reflexivity|].
    assert (X : (if (c =? c_dquote)%N then parse_quoted cfg (shift_fb fb) false (advance c k) r
        else do fb' <- fb_push cfg (shift_fb fb) c (advance c k); parse_unquoted cfg fb' (advance c k) r)
      = shift_step shift_fr (if (c =? c_dquote)%N then parse_quoted cfg0 fb false (advance c k) r
        else do fb' <- fb_push cfg0 fb c (advance c k); parse_unquoted cfg0 fb' (advance c k) r)).
    { destruct (c =? c_dquote)%N; [apply shift_quoted|]. eapply shift_bind; [apply shift_push|]. intro a. eapply shift_unquoted. reflexivity. }
    destruct (c =? c_backslash)%N; [|exact X]. destruct r as [|m r']; [exact X|]. destruct (m =? c_nl)%N; [|exact X].
    apply IH. cbn [length] in L. lia.
  Qed.
  Lemma shift_fields : forall fuel row col fs k s,
    parse_fields fuel cfg row col (map shift_field fs) k s = shift_step shift_rr (parse_fields fuel cfg0 row col fs k s).
  Proof.
    induction fuel as [|fuel IH]; intros row col fs k s; [reflexivity|]. cbn [parse_fields].
    eapply shift_bind; [apply (shift_parse_field _ (fb_new {| addr_x := col; addr_y := row |}) k s (le_n _))|].
    intros [[fr k'] s']. destruct fr as [f|f|]; cbn [shift_fr].
    - change [shift_field f] with (map shift_field [f]). rewrite <- map_app. apply IH.
    - unfold shift_step. cbn [shift_out shift_rr]. rewrite map_app. reflexivity.
    - destruct fs; reflexivity.
  Qed.
  Lemma shift_record row k s : parse_record cfg row k s = shift_step shift_rr (parse_record cfg0 row k s).
  Proof.
    unfold parse_record. pose proof (fun fuel => shift_fields fuel row 0 [] k s) as X. cbn [map] in X.
    destruct s as [|c r]; [apply X|]. destruct (c =? c_hash)%N; [|apply X]. destruct (ignore_line k (c :: r)). reflexivity.
  Qed.
  Lemma shift_records : forall fuel row rs k s,
    parse_records fuel cfg row (map (map shift_field) rs) k s = shift_out (map (map shift_field)) (parse_records fuel cfg0 row rs k s).
  Proof.
    induction fuel as [|fuel IH]; intros row rs k s; [reflexivity|]. cbn [parse_records].
    eapply shift_bind; [apply shift_record|]. intros [[rr k'] s']. destruct rr as [| |r]; cbn [shift_rr]; [apply IH|reflexivity|].
    change [map shift_field r] with (map (map shift_field) [r]). rewrite <- map_app. apply IH.
  Qed.
  (** the same records at the same addresses, or the same error, everything [d] lines further down *)
  Theorem csvp_shift inp : csvp_parse cfg inp = shift_out (map (map shift_field)) (csvp_parse cfg0 inp).
  Proof. unfold csvp_parse. destruct (skip_newlines cursor_init inp) as [k s]. apply (shift_records _ 0 []). Qed.
End Shift.
