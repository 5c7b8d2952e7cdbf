(** * PropDate: C66 (dates mean what they say) and C63 from the text of a cell to the rule Excel gets *)
From Coq Require Import ZifyBool ZifyN ZifyNat.
From Verif Require Import Base BaseProofs Csvp AstProofs Ast AstParser Options CellLexer CellParser CellSpec CellProofs CellProofs3 CellProofs10 Targets TargetSpec DateTime DateSpec DateProofs PropCell PropFormat.

(** ** C66 *)
(** Every text that the cell reader takes for a date is written in one of the two ways. *)
Theorem C66_tokens : forall t, date_shape t <-> exists y m d, date_says t (y, m, d).
Proof. intro t. rewrite shape_says. split; [intros ([[y m] d] & H); eauto|intros (y & m & d & H); eauto]. Qed.
Print Assumptions C66_tokens.
(** It is read as the date it says when there is such a date in the calendar, and refused when there is not. *)
Theorem C66_reads : forall t y m d, date_says t (y, m, d) ->
  (valid_date y m d -> date_time_of t = Some (DTDate y m d)) /\ (~ valid_date y m d -> date_time_of t = None).
Proof.
  intros t y m d H. rewrite (says_read t y m d H). pose proof (says_ok t y m d H) as O. destruct (ymd_ok y m d); split; intro V; try reflexivity; exfalso.
  - apply V, O. reflexivity.
  - apply O in V. discriminate.
Qed.
Print Assumptions C66_reads.
Example C66_nonvacuous :
  date_says (lit "2024-02-29") (2024, 2, 29)%Z /\ valid_date 2024 2 29 /\ date_time_of (lit "2024-02-29") = Some (DTDate 2024 2 29)
  /\ date_says (lit "2/9/69") (2069, 2, 9)%Z /\ date_time_of (lit "2/9/69") = Some (DTDate 2069 2 9)
  /\ date_says (lit "12/31/70") (1970, 12, 31)%Z /\ date_time_of (lit "12/31/70") = Some (DTDate 1970 12 31)
  /\ date_says (lit "2/29/1900") (1900, 2, 29)%Z /\ ~ valid_date 1900 2 29 /\ date_time_of (lit "2/29/1900") = None.
Proof.
  split. { apply (ds_iso (lit "2024") (lit "02") (lit "29")); split; cbn; auto. }
  split. { split; cbn; lia. } split; [vm_compute; reflexivity|].
  split. { apply (ds_us (lit "2") (lit "9") (lit "69")); split; cbn; auto. } split; [vm_compute; reflexivity|].
  split. { apply (ds_us (lit "12") (lit "31") (lit "70")); split; cbn; auto. } split; [vm_compute; reflexivity|].
  split. { apply (ds_us (lit "2") (lit "29") (lit "1900")); split; cbn; auto. }
  split. { intros (_ & V). cbn in V. lia. } vm_compute. reflexivity.
Qed.
(** Whatever else is handed to it, the result is a date of the calendar and a time of a day. *)
Theorem C66_only_dates : forall s x, date_time_of s = Some x -> valid_date_time x.
Proof. exact read_valid. Qed.
Print Assumptions C66_only_dates.
(** Showing a date or time and reading the text gives it back, so nothing is lost in a text sent to a target. *)
Theorem C66_round_trip : forall x, valid_date_time x -> date_time_of (show_date_time x) = Some x.
Proof. exact round_trip. Qed.
Print Assumptions C66_round_trip.
Example C66_shown : show_date_time (DTDate 2012 3 4) = lit "2012-03-04" /\ show_date_time (DTDateAndTime (-5) 12 31 23 59 60) = lit "-0005-12-31 23:59:60"
  /\ valid_date_time (DTDateAndTime (-5) 12 31 23 59 60).
Proof. split; [vm_compute; reflexivity|]. split; [vm_compute; reflexivity|]. split; [split; [lia|split; cbn; lia]|unfold valid_time; lia]. Qed.
(** Times of a day: hours and minutes, the seconds being 0 when they are left out. *)
Theorem C66_times : forall t h mi s, time_says t (h, mi, s) ->
  (clock h mi s -> date_time_of t = Some (DTTime h mi s)) /\ (~ clock h mi s -> date_time_of t = None).
Proof. exact read_clock. Qed.
Print Assumptions C66_times.
(** A date, a blank and a time. Missing: years of two digits, see the next theorem. *)
Theorem C66_moments : forall D t y m d h mi s, date_says D (y, m, d) -> no_short_year D -> time_says t (h, mi, s) ->
  (valid_date y m d /\ clock h mi s -> date_time_of (D ++ [c_space] ++ t) = Some (DTDateAndTime y m d h mi s))
  /\ (~ (valid_date y m d /\ clock h mi s) -> date_time_of (D ++ [c_space] ++ t) = None).
Proof.
  intros D t y m d h mi s H N T. apply read_moment; [|exact T]. inversion H as [y' m' d' Hy Hm Hd|m' d' y' Hm Hd Hy]; subst; [constructor; assumption|].
  replace (full_year y') with (number y'); [constructor; assumption|]. unfold full_year. destruct (Nat.eqb_spec (length y') 2); [|reflexivity].
  exfalso. apply (N (m' ++ [c_slash] ++ d') y'); [exact e|]. rewrite <- !app_assoc. reflexivity.
Qed.
Print Assumptions C66_moments.
(** Refuted: a two-digit year keeps its century when a time follows. With a time, the year 23 is the year 23. *)
Theorem C66_short_year_refuted : forall D t y m d h mi s Y, date_says D (y, m, d) -> (exists a, D = a ++ [c_slash] ++ Y) -> digits 2 2 Y -> time_says t (h, mi, s) -> valid_date y m d -> clock h mi s ->
  date_time_of D = Some (DTDate y m d) /\ date_time_of (D ++ [c_space] ++ t) = Some (DTDateAndTime (number Y) m d h mi s) /\ (1900 <= y - number Y)%Z.
Proof.
  intros D t y m d h mi s Y H (a & Ea) HY T V C. inversion H as [y' m' d' Hy Hm Hd Ed Ex|m' d' y' Hm Hd Hy Ed Ex]; subst y m d.
  - exfalso. assert (K : In c_slash D) by (rewrite Ea; apply in_app_iff; right; left; reflexivity). rewrite <- Ed in K.
    rewrite !in_app_iff in K. cbn [In] in K. destruct Hy as (_ & Hy), Hm as (_ & Hm), Hd as (_ & Hd). rewrite forallb_forall in Hy, Hm, Hd.
    destruct K as [K|[[K|[]]|[K|[[K|[]]|K]]]]; try discriminate K; [apply Hy in K|apply Hm in K|apply Hd in K]; discriminate K.
  - assert (y' = Y) as ->.
    { rewrite <- Ed in Ea. clear - Ea Hy HY. assert (K : rev y' ++ c_slash :: rev (m' ++ [c_slash] ++ d') = rev Y ++ c_slash :: rev a).
      { change (m' ++ [c_slash] ++ d' ++ [c_slash] ++ y') with (m' ++ c_slash :: d' ++ c_slash :: y') in Ea. change (m' ++ [c_slash] ++ d') with (m' ++ c_slash :: d').
        replace (m' ++ c_slash :: d' ++ c_slash :: y') with ((m' ++ c_slash :: d') ++ c_slash :: y') in Ea by (rewrite <- app_assoc; reflexivity).
        pose proof (f_equal (@rev _) Ea) as R. rewrite (rev_app_distr (m' ++ c_slash :: d')), (rev_app_distr a) in R. cbn [rev app] in R. rewrite <- !app_assoc in R. exact R. }
      destruct Hy as (_ & Hy), HY as (_ & HY). rewrite forallb_forall in Hy, HY.
      assert (P : forall u u' v v', (forall x, In x u -> is_ascii_digit x = true) -> (forall x, In x u' -> is_ascii_digit x = true) -> u ++ c_slash :: v = u' ++ c_slash :: v' -> u = u').
      { clear. induction u as [|x u IH]; intros [|x' u'] v v' H H' Q; [reflexivity| | |]; cbn [app] in Q; injection Q as Q1 Q2.
        - exfalso. subst x'. specialize (H' _ (or_introl eq_refl)). discriminate H'.
        - exfalso. subst x. specialize (H _ (or_introl eq_refl)). discriminate H.
        - subst x'. f_equal. eapply IH; [| |exact Q2]; intros z Hz; [apply H|apply H']; right; exact Hz. }
      assert (rev y' = rev Y) as R by (eapply P; [| |exact K]; intros x Hx; rewrite <- in_rev in Hx; auto).
      rewrite <- (rev_involutive y'), R, rev_involutive. reflexivity. }
    assert (B : (0 <= number Y <= 99)%Z) by (pose proof (number_bound Y); destruct HY as (L & HY); pose proof (number_lt Y 2 HY ltac:(lia)); lia).
    assert (F : full_year Y = (if (number Y <? 70)%Z then 2000 + number Y else 1900 + number Y)%Z) by (unfold full_year; destruct HY as (L & _); replace (length Y =? 2) with true by (symmetry; apply Nat.eqb_eq; lia); reflexivity).
    assert (V' : valid_date (number Y) (number m') (number d')).
    { rewrite F in V. unfold valid_date, days_in_month in *. rewrite <- (century_leap _ B). exact V. }
    rewrite <- Ed in H. split; [exact (proj1 (C66_reads _ _ _ _ H) V)|]. split; [exact (proj1 (read_moment _ _ _ _ _ _ _ _ (ld_us m' d' Y Hm Hd Hy) T) (conj V' C))|].
    rewrite F. destruct (number Y <? 70)%Z; lia.
Qed.
Print Assumptions C66_short_year_refuted.
Example C66_times_nonvacuous : time_says (lit "9:05") (9, 5, 0)%Z /\ date_time_of (lit "9:05") = Some (DTTime 9 5 0) /\ date_time_of (lit "24:00") = None
  /\ date_time_of (lit "2/29/2024 23:59:60") = Some (DTDateAndTime 2024 2 29 23 59 60) /\ date_time_of (lit "1/2/23 9:05") = Some (DTDateAndTime 23 1 2 9 5 0).
Proof. split; [apply (ts_minutes (lit "9") (lit "05")); split; cbn; auto|]. repeat split; vm_compute; reflexivity. Qed.
(** Two ways of writing dates are the same to the program exactly when they say the same day. *)
Theorem C66_same_day : forall t t' y m d y' m' d', date_says t (y, m, d) -> date_says t' (y', m', d') -> valid_date y m d -> valid_date y' m' d' ->
  (chrono_canon t = chrono_canon t' <-> (y, m, d) = (y', m', d')).
Proof.
  intros t t' y m d y' m' d' H H' V V'. unfold chrono_canon. rewrite (proj1 (C66_reads _ _ _ _ H) V), (proj1 (C66_reads _ _ _ _ H') V'). cbn [option_map]. split.
  - intro E. assert (S1 : show_date_time (DTDate y m d) = show_date_time (DTDate y' m' d')) by congruence. apply (f_equal date_time_of) in S1.
    pose proof (says_year _ _ _ _ H). pose proof (says_year _ _ _ _ H'). rewrite !C66_round_trip in S1; [congruence|split; [lia|assumption]..].
  - intro E. injection E as <- <- <-. reflexivity.
Qed.
Print Assumptions C66_same_day.
Example C66_same_day_nonvacuous : chrono_canon (lit "1/2/23") = chrono_canon (lit "2023-01-02") /\ chrono_canon (lit "1/2/23") = Some (lit "2023-01-02").
Proof. split; vm_compute; reflexivity. Qed.
(** The dates of rules and lists in a cell are therefore these. *)
Theorem C66_in_cells : forall co t x, date_canon co = chrono_canon ->
  (date_text co t x <-> exists y m d, date_says t (y, m, d) /\ valid_date y m d /\ x = show_date_time (DTDate y m d)).
Proof.
  intros co t x E. unfold date_text. rewrite E, C66_tokens. split.
  - intros ((y & m & d & H) & X). exists y, m, d. unfold chrono_canon in X. rewrite (says_read t y m d H) in X. destruct (ymd_ok y m d) eqn:O; [|discriminate].
    injection X as <-. split; [exact H|]. split; [apply (says_ok t y m d H); exact O|reflexivity].
  - intros (y & m & d & H & V & ->). split; [eauto|]. unfold chrono_canon. rewrite (proj1 (C66_reads _ _ _ _ H) V). reflexivity.
Qed.
Print Assumptions C66_in_cells.

(** ** C63, from the text *)
(** the model of reading cells with chrono's dates in the place of the oracle *)
Definition with_chrono (co : cell_oracle) : cell_oracle :=
  {| co_oracle := co_oracle co; u_lower := u_lower co; date_canon := chrono_canon; a1_canon := a1_canon co |}.
(** A rule about a date, written in a cell: the number Excel gets is that of the day two days before the one written. *)
Theorem C63_text_refuted : forall co f r t y m d n v pos, located f -> no_list v ->
  date_says t (y, m, d) -> excel_serial (y, m, d) n ->
  f_value f = lit "[[validate=date_after(" ++ t ++ lit ")]]" ++ v ->
  exists c, parse_cell (with_chrono co) f r = Ok (c, r) /\ validation (cell_options c) = Some (DVDateAfter (show_date y m d))
    /\ excel_validation chrono_serial pos (DVDateAfter (show_date y m d))
       = Ok {| xv_type := lit "Date"; xv_operator := Some (lit "GreaterThan"); xv_formula1 := show_Z (n - 2); xv_formula2 := None |}.
Proof.
  intros co f r t y m d n v pos L Nl H Hn E.
  assert (Vn : valid_date y m d /\ distance_from_epoch y m d = (n - 2)%Z).
  { split; [|apply C63_dates_refuted; exact Hn]. clear - Hn. remember (y, m, d) as e eqn:Ee. revert y m d Ee. induction Hn as [|[[y1 m1] d1] n Hn IH]; intros y m d Ee.
    - injection Ee as <- <- <-. split; cbn; lia.
    - destruct (next_day (y1, m1, d1)) as [[y2 m2] d2] eqn:E2. injection Ee as -> -> ->. exact (proj2 (day_number_next y1 m1 d1 (IH _ _ _ eq_refl) _ _ _ E2)). }
  destruct Vn as (V & Dn).
  assert (At : forallb is_ascii t = true).
  { assert (Dg : forall lo hi a, digits lo hi a -> forallb is_ascii a = true).
    { intros lo hi a (_ & D). apply forallb_forall. intros c Hc. rewrite forallb_forall in D. specialize (D c Hc). unfold is_ascii_digit, is_ascii in *. lia. }
    clear - H Dg. remember (y, m, d) as e eqn:Ee. destruct H as [a b c A B C|a b c A B C]; rewrite !forallb_app, (Dg _ _ _ A), (Dg _ _ _ B), (Dg _ _ _ C); reflexivity. }
  assert (T : opt_text (with_chrono co) true false (lit "validate" ++ [c_eq] ++ lit "date_after" ++ lit "(" ++ t ++ lit ")") (OValidate (DVDateAfter (show_date y m d)))).
  { eapply ot_validate with (w := lit "date_after" ++ lit "(" ++ t ++ lit ")").
    - right. left. reflexivity.
    - exists [], []. split; [reflexivity|]. split; reflexivity.
    - apply (vt_date (with_chrono co) true (lit "date_after") (lit "(" ++ t ++ lit ")") DVDateAfter).
      + split; [discriminate|reflexivity].
      + left. reflexivity.
      + exists [], [], t, []. split; [reflexivity|]. split; [reflexivity|]. split; [reflexivity|]. split; [reflexivity|].
        apply C66_in_cells; [reflexivity|]. exists y, m, d. auto. }
  eexists. split.
  - apply (one_option (with_chrono co) f r _ _ v T); [| |exact L|exact Nl].
    + rewrite E. change (lit "[[validate=date_after(") with (lit "[[" ++ lit "validate" ++ [c_eq] ++ lit "date_after" ++ lit "("). change (lit ")]]" ++ v) with (lit ")" ++ lit "]]" ++ v).
      rewrite <- !app_assoc. reflexivity.
    + repeat (apply ascii_app; split); auto; reflexivity.
  - split; [reflexivity|]. cbn [excel_validation]. unfold chrono_serial.
    assert (R : date_time_of (show_date y m d) = Some (DTDate y m d)).
    { apply (C66_round_trip (DTDate y m d)). split; [pose proof (says_year _ _ _ _ H); lia|exact V]. }
    rewrite R, Dn. reflexivity.
Qed.
Print Assumptions C63_text_refuted.
Example C63_text_nonvacuous : exists c, parse_cell (with_chrono ex_co) (ex_field 0 (lit "[[validate=date_after(3/5/1900)]]x")) default_row = Ok (c, default_row)
  /\ validation (cell_options c) = Some (DVDateAfter (lit "1900-03-05")) /\ chrono_serial (lit "1900-03-05") = Some 63%Z /\ excel_serial (1900, 3, 5)%Z 65.
Proof.
  exists (match parse_cell (with_chrono ex_co) (ex_field 0 (lit "[[validate=date_after(3/5/1900)]]x")) default_row with Ok (c, _) => c | _ => cell_default_from default_row (ex_field 0 []) end).
  split; [vm_compute; reflexivity|]. split; [vm_compute; reflexivity|]. split; [vm_compute; reflexivity|]. apply C63_nonvacuous.
Qed.

(** No rule that can be written ends the program when it is sent to Excel: the dates of rules are days, never times. *)
Definition dates_of (v : data_validation) : list str :=
  match v with
  | DVDateAfter a | DVDateBefore a | DVDateEqualTo a | DVDateOnOrAfter a | DVDateOnOrBefore a => [a]
  | DVDateBetween a b | DVDateNotBetween a b => [a; b]
  | _ => []
  end.
Lemma validation_dates co strict t v : date_canon co = chrono_canon -> validation_text co strict t v -> Forall (fun a => exists n, chrono_serial a = Some n) (dates_of v).
Proof.
  intros E H.
  assert (K : forall t a, date_text co t a -> exists n, chrono_serial a = Some n).
  { intros t' a Ha. apply C66_in_cells in Ha as (y & m & d & Hs & V & ->); [|exact E]. unfold chrono_serial.
    rewrite (C66_round_trip (DTDate y m d)); [eauto|]. split; [pose proof (says_year _ _ _ _ Hs); lia|exact V]. }
  destruct H as [n v W Sp|n t mk s W Sp P|n t mk d W Sp (w0 & w1 & x & w2 & _ & _ & _ & _ & D)|n t mk a b W Sp (w0 & w1 & x & w2 & y & w3 & _ & _ & _ & _ & _ & D1 & D2)|n t mk z W Sp P|n t mk a b W Sp P|n t ns W _ _|n t a W _ _]; cbn [dates_of]; auto.
  - unfold spelled, plain_validations in Sp. cbn in Sp. decompose [or] Sp; try contradiction; match goal with H : (_, _) = (_, _) |- _ => injection H as _ <- end; constructor.
  - unfold spelled, text_validations in Sp. cbn in Sp. decompose [or] Sp; try contradiction; match goal with H : (_, _) = (_, _) |- _ => injection H as _ <- end; constructor.
  - unfold spelled, date_validations in Sp. cbn in Sp. decompose [or] Sp; try contradiction; match goal with H : (_, _) = (_, _) |- _ => injection H as _ <- end; cbn [dates_of]; constructor; eauto.
  - unfold spelled, date_pair_validations in Sp. cbn in Sp. decompose [or] Sp; try contradiction; match goal with H : (_, _) = (_, _) |- _ => injection H as _ <- end; cbn [dates_of]; repeat constructor; eauto.
  - unfold spelled, number_validations in Sp. cbn in Sp. decompose [or] Sp; try contradiction; match goal with H : (_, _) = (_, _) |- _ => injection H as _ <- end; constructor.
  - unfold spelled, number_pair_validations in Sp. cbn in Sp. decompose [or] Sp; try contradiction; match goal with H : (_, _) = (_, _) |- _ => injection H as _ <- end; constructor.
Qed.
Lemma excel_validation_ok pos v : Forall (fun a => exists n, chrono_serial a = Some n) (dates_of v) -> exists x, excel_validation chrono_serial pos v = Ok x.
Proof.
  intro F. destruct v; cbn [excel_validation dates_of] in *; eauto.
  all: inversion F as [|? ? (n1 & N1) F2]; subst; rewrite ?N1; eauto.
  all: inversion F2 as [|? ? (n2 & N2) F3]; subst; rewrite ?N2; eauto.
Qed.
Lemma last_validation os x v : validation (apply_opts os x) = Some v -> In (OValidate v) os \/ validation x = Some v.
Proof.
  unfold apply_opts. cbn [validation]. unfold last_of. generalize (validation x). induction os as [|o os IH]; intros d H; [right; exact H|].
  cbn [fold_left] in H. destruct (IH _ H) as [K|K]; [left; right; exact K|]. destruct o; auto. injection K as ->. left. left. reflexivity.
Qed.
Lemma opts_validation co strict b t o v : opt_text co strict b t o -> o = OValidate v -> exists w, validation_text co strict w v.
Proof. intros H E. destruct H; try discriminate. injection E as ->. eauto. Qed.
Lemma options_validation co strict b t os v : options_text co strict b t os -> In (OValidate v) os -> exists w, validation_text co strict w v.
Proof.
  induction 1 as [w t o w' _ H _|w t o w' r os _ H _ _ IH]; intro I.
  - destruct I as [E|[]]. eapply opts_validation; eauto.
  - destruct I as [E|I]; [eapply opts_validation; eauto|auto].
Qed.
Lemma lists_validation co strict t ls b os v : lists_text co strict t ls -> In (b, os) ls -> In (OValidate v) os -> exists w, validation_text co strict w v.
Proof.
  induction 1 as [|w t os' r ls _ H _ IH|w t os' r ls _ H _ IH]; intros I J.
  - destruct I.
  - destruct I as [E|I]; [injection E as <- <-; eapply options_validation; eauto|auto].
  - destruct I as [E|I]; [injection E as <- <-; eapply options_validation; eauto|auto].
Qed.
Lemma in_row_opts o ls : In o (row_opts ls) -> exists b os, In (b, os) ls /\ In o os.
Proof. unfold row_opts. intro H. apply in_concat in H as (os & H & I). apply in_map_iff in H as ([b os'] & <- & H). apply filter_In in H as (H & _). eauto. Qed.
Lemma in_cell_opts o ls : In o (cell_opts ls) -> exists b os, In (b, os) ls /\ In o os.
Proof. unfold cell_opts. intro H. apply in_concat in H as (os & H & I). apply in_map_iff in H as ([b os'] & <- & H). apply filter_In in H as (H & _). eauto. Qed.
Lemma Forall2_len {A B} (R : A -> B -> Prop) l l' : Forall2 R l l' -> length l = length l'.
Proof. induction 1; cbn; congruence. Qed.
Lemma in_before o ls : In o (before_cell ls) -> In o ls.
Proof. induction ls as [|[[|] os] ls IH]; cbn; [tauto| |tauto]. intros [E|H]; auto. Qed.
Theorem C63_never_panics_partial : forall co cfg inp rs y fs r c v pos,
  csvp_parse cfg inp = Ok rs -> nth_error rs y = Some fs -> forallb is_ascii inp = true ->
  row_parse (with_chrono co) fs = Ok r -> In c (row_cells r) -> validation (cell_options c) = Some v ->
  exists x, excel_validation chrono_serial pos v = Ok x.
Proof.
  intros co cfg inp rs y fs r c v pos H Hy A HR Hc Hv. apply excel_validation_ok.
  pose proof (C40_row_sound_partial (with_chrono co) cfg inp rs y fs H Hy A) as S1. rewrite HR in S1. destruct S1 as (rds & F2 & _ & M).
  apply In_nth_error in Hc as (i & Hi).
  assert (exists f, nth_error fs i = Some f) as (f & Hf).
  { destruct (nth_error fs i) eqn:E; [eauto|]. apply nth_error_None in E. rewrite <- (rm_length _ _ _ _ _ M) in E. apply nth_error_None in E. congruence. }
  assert (exists rd, nth_error rds i = Some rd) as (rd & Hrd).
  { destruct (nth_error rds i) eqn:E; [eauto|]. apply nth_error_None in E. rewrite <- (Forall2_len _ _ _ F2) in E. apply nth_error_None in E. congruence. }
  assert (RD : forall rd, In rd rds -> exists f, reads (with_chrono co) false f rd).
  { clear - F2. intros rd I. induction F2 as [|f rd' fs rds R F2 IH]; [destruct I|]. destruct I as [<-|I]; eauto. }
  assert (LV : forall rd b os, In rd rds -> In (b, os) (rd_lists rd) -> In (OValidate v) os -> exists w, validation_text (with_chrono co) false w v).
  { intros rd' b os I J K. destruct (RD _ I) as (f' & _ & Lt & _). eapply lists_validation; eauto. }
  pose proof (rm_cells _ _ _ _ _ M i f rd c Hf Hrd Hi) as CM. rewrite (cm_options _ _ _ _ _ _ CM) in Hv.
  assert (exists w, validation_text (with_chrono co) false w v) as (w & Hw).
  { apply last_validation in Hv as [I|Hv].
    - apply in_cell_opts in I as (b & os & I & J). eapply (LV rd); eauto. eapply nth_error_In; eauto.
    - destruct (i =? 0).
      + apply last_validation in Hv as [I|Hv]; [|discriminate]. apply in_row_opts in I as (b & os & I & J). apply in_before in I. eapply (LV rd); eauto. eapply nth_error_In; eauto.
      + rewrite (rm_options _ _ _ _ _ M) in Hv. apply last_validation in Hv as [I|Hv]; [|discriminate]. apply in_row_opts in I as (b & os & I & J).
        unfold row_lists in I. destruct rds as [|rd0 rds']; [destruct I|]. eapply (LV rd0); eauto. left. reflexivity. }
  eapply validation_dates; [|exact Hw]. reflexivity.
Qed.
Print Assumptions C63_never_panics_partial.
Example C63_never_panics_nonvacuous : exists rs fs r c, csvp_parse ex_cfg (lit "![[validate=date_btwn(2020-01-01 2/3/21)]]a,b") = Ok rs /\ nth_error rs 0 = Some fs
  /\ row_parse (with_chrono ex_co) fs = Ok r /\ nth_error (row_cells r) 1 = Some c /\ validation (cell_options c) = Some (DVDateBetween (lit "2020-01-01") (lit "2021-02-03")).
Proof.
  do 4 eexists. split; [vm_compute; reflexivity|]. split; [reflexivity|]. split; [vm_compute; reflexivity|]. split; [reflexivity|]. vm_compute. reflexivity.
Qed.
