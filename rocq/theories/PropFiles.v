(** * PropFiles: backups, the choice of the output, and runs of the whole program on files (C37, C44, C64, C65). *)
From Verif Require Import Base BaseProofs Csvp Ast AstParser AstProofs Options Sheet Loader Targets Files PropLoader PropTarget.

(** ** C37 *)
Lemma strs_eqb_spec a b : reflect (a = b) (strs_eqb a b).
Proof.
  revert b. induction a as [|x a IH]; intro b; destruct b as [|y b]; cbn [strs_eqb]; try (constructor; congruence).
  destruct (str_eqb_spec x y) as [->|N]; cbn [andb]; [|constructor; congruence]. destruct (IH b) as [->|N]; constructor; congruence.
Qed.
Lemma file_eqb_spec p q : reflect (p = q) (file_eqb p q).
Proof.
  destruct p as [d n], q as [d' n']. unfold file_eqb. cbn [p_dir p_name]. destruct (strs_eqb_spec d d') as [->|N]; cbn [andb]; [|constructor; congruence].
  destruct n as [n|], n' as [n'|]; try (constructor; congruence). destruct (str_eqb_spec n n') as [->|N]; constructor; congruence.
Qed.
Lemma write_same F p t : write_file F p t p = Some t.
Proof. unfold write_file. destruct (file_eqb_spec p p); [reflexivity|contradiction]. Qed.
Lemma write_other F p t q : q <> p -> write_file F p t q = F q.
Proof. intro H. unfold write_file. destruct (file_eqb_spec q p); [contradiction|reflexivity]. Qed.
Lemma first_unused_spec F ps q : first_unused F ps = Some q -> In q ps /\ F q = None.
Proof. induction ps as [|p ps IH]; cbn [first_unused]; [discriminate|]. destruct (F p) eqn:E; intro H; [destruct (IH H); split; [right; assumption|assumption]|injection H as <-; split; [left; reflexivity|exact E]]. Qed.
Lemma first_unused_none F ps : first_unused F ps = None <-> forall q, In q ps -> F q <> None.
Proof.
  induction ps as [|p ps IH]; cbn [first_unused].
  - split; [intros _ q []|reflexivity].
  - destruct (F p) eqn:E.
    + rewrite IH. split; intros H q I; [destruct I as [<-|I]; [congruence|auto]|apply H; right; exact I].
    + split; [discriminate|]. intro H. exfalso. apply (H p); [left; reflexivity|exact E].
Qed.
Lemma backup_path_unused now F p q : backup_path now F p = Ok q -> F q = None.
Proof.
  unfold backup_path. destruct (file_stem p) as [stem|]; [|discriminate]. destruct (extension p) as [ext|]; [|discriminate].
  destruct (first_unused F _) as [r|] eqn:E; [|discriminate]. intro H. injection H as <-. exact (proj2 (first_unused_spec _ _ _ E)).
Qed.
(** A successful backup is a new file, which no file of that name was before, with the contents of the target; all other files are as before. *)
Theorem C37_backup : forall creatable now F p q F', backup_file creatable now F p = (Ok q, F') ->
  F q = None /\ F p <> None /\ F' q = F p /\ forall r, r <> q -> F' r = F r.
Proof.
  intros cr now F p q F'. unfold backup_file. destruct (backup_path now F p) as [q0| | |] eqn:B; try discriminate. unfold copy_file.
  destruct (F p) as [t|] eqn:P; [|discriminate]. destruct (cr q0); [|discriminate]. intro H. injection H as <- <-. split; [eapply backup_path_unused; eauto|]. split; [discriminate|]. split; [apply write_same|apply write_other].
Qed.
Print Assumptions C37_backup.
(** A failed one changes nothing; and it does fail or succeed. *)
Theorem C37_failed : forall creatable now F p,
  (exists q F', backup_file creatable now F p = (Ok q, F')) \/ exists e, backup_file creatable now F p = (Err e, F).
Proof.
  intros cr now F p. unfold backup_file, backup_path. destruct (file_stem p) as [stem|]; [|eauto]. destruct (extension p) as [ext|]; [|eauto].
  destruct (first_unused F _) as [q|]; [|eauto]. unfold copy_file. destruct (F p); [|eauto]. destruct (cr q); eauto.
Qed.
Print Assumptions C37_failed.
(** It fails for want of a name only if all the names for that moment are taken. *)
Theorem C37_names_taken : forall creatable now F p F', backup_file creatable now F p = (Err AllNamesTaken, F') ->
  exists stem ext, file_stem p = Some stem /\ extension p = Some ext /\ forall t, In t (timestamps now) -> F (backup_name p stem ext t) <> None.
Proof.
  intros cr now F p F'. unfold backup_file, backup_path. destruct (file_stem p) as [stem|] eqn:St; [|discriminate]. destruct (extension p) as [ext|] eqn:Ex; [|discriminate].
  destruct (first_unused F _) as [q|] eqn:U; [unfold copy_file; destruct (F p); [destruct (cr q)|]; discriminate|]. intros _.
  exists stem, ext. repeat split; auto. intros t I. apply (proj1 (first_unused_none _ _) U). apply in_map. exact I.
Qed.
Print Assumptions C37_names_taken.
(** Any number of backups, of any files, at any times: no file that exists is ever changed. *)
Fixpoint backups (F : files) (bs : list ((path -> bool) * clock * path)) : files :=
  match bs with
  | [] => F
  | (cr, now, p) :: bs => backups (snd (backup_file cr now F p)) bs
  end.
Theorem C37_history : forall bs F r t, F r = Some t -> backups F bs r = Some t.
Proof.
  induction bs as [|[[cr now] p] bs IH]; intros F r t H; [exact H|]. cbn [backups]. apply IH. destruct (C37_failed cr now F p) as [(q & F' & B)|(e & B)]; rewrite B; cbn [snd]; [|exact H].
  destruct (C37_backup _ _ _ _ _ _ B) as (Q & _ & _ & O). rewrite O; [exact H|]. intros ->. congruence.
Qed.
Print Assumptions C37_history.
Definition file_named (s : string) : path := {| p_dir := [lit "dir"]; p_name := Some (lit s) |}.
Definition ex_now : clock := {| year := 2024; month := 3; day := 7; hour := 15; minute := 4; second := 5; nanosecond := 6 |}.
Definition one_file (p : path) (s : string) : files := write_file (fun _ => None) p (lit s).
Example C37_nonvacuous : backup_path ex_now (one_file (file_named "out.csv") "a,b") (file_named "out.csv") = Ok (file_named "out-2024_03_07.csv")
  /\ backup_path ex_now (write_file (one_file (file_named "out.csv") "a,b") (file_named "out-2024_03_07.csv") []) (file_named "out.csv") = Ok (file_named "out-2024_03_07-03_04PM.csv")
  /\ snd (backup_file (fun _ => true) ex_now (one_file (file_named "out.csv") "a,b") (file_named "out.csv")) (file_named "out-2024_03_07.csv") = Some (lit "a,b").
Proof. vm_compute. auto. Qed.
(** C37 refuted (1): if another program creates the file between the check and the copy, its contents are lost. *)
Theorem C37_race_refuted : forall now F p q t theirs, backup_path now F p = Ok q -> q <> p -> F p = Some t ->
  snd (copy_file (fun _ => true) (write_file F q theirs) p q) q = Some t.
Proof. intros now F p q t theirs B N P. unfold copy_file. rewrite write_other by congruence. rewrite P. apply write_same. Qed.
Print Assumptions C37_race_refuted.
(** (2): if the name has a dot before the one of its extension, what stands after that dot is lost from the name of the backup, and the time with it: *)
Lemma last_dot_none s : last_dot s = None <-> ~ In c_dot s.
Proof.
  induction s as [|c s IH]; cbn [last_dot In]; [tauto|]. destruct (last_dot s) as [[a b]|].
  - split; [discriminate|]. intro H. exfalso. apply H. right. apply Decidable.not_not; [|rewrite <- IH; discriminate].
    destruct (in_dec N.eq_dec c_dot s); [left|right]; assumption.
  - destruct (N.eqb_spec c c_dot) as [->|N]; [|intuition]. split; [discriminate|]. intro H. exfalso. apply H. left. reflexivity.
Qed.
Lemma last_dot_app a b : ~ In c_dot b -> last_dot (a ++ c_dot :: b) = Some (a, b).
Proof.
  intro H. induction a as [|c a IH]; cbn [app last_dot]; [|rewrite IH; reflexivity]. apply last_dot_none in H. rewrite H. reflexivity.
Qed.
Lemma dec_no_dot n : ~ In c_dot (dec n).
Proof.
  intro H. pose proof (AstProofs.dec_digits n) as D. rewrite forallb_forall in D. specialize (D _ H). vm_compute in D. discriminate.
Qed.
Lemma pad0_no_dot w n : ~ In c_dot (pad0 w n).
Proof. unfold pad0. intro H. apply in_app_iff in H as [H|H]; [apply repeat_spec in H; discriminate|]. eapply dec_no_dot, H. Qed.
Lemma timestamps_no_dot now t : In t (timestamps now) -> ~ In c_dot t.
Proof.
  assert (L : forall s, forallb (fun c => negb (c =? c_dot)%N) (lit s) = true -> ~ In c_dot (lit s)).
  { intros s H I. rewrite forallb_forall in H. specialize (H _ I). rewrite N.eqb_refl in H. discriminate. }
  intros H I. unfold timestamps in H. cbn [In] in H.
  assert (AP : ~ In c_dot (am_pm (hour now))) by (unfold am_pm; destruct (_ <? _)%N; apply L; reflexivity).
  assert (AL : forall a b, ~ In c_dot a -> ~ In c_dot b -> ~ In c_dot (a ++ b)) by (intros a b A B C; apply in_app_iff in C as [C|C]; auto).
  repeat (destruct H as [<-|H]; [revert I; repeat first [exact (pad0_no_dot _ _)|exact AP|apply L; reflexivity|apply AL]|]). destruct H.
Qed.
Theorem C37_dotted_refuted : forall d a b ext now F q, a <> [] -> ~ In c_dot b -> ~ In c_dot ext ->
  backup_path now F {| p_dir := d; p_name := Some (a ++ c_dot :: b ++ c_dot :: ext) |} = Ok q ->
  q = {| p_dir := d; p_name := Some (a ++ match ext with [] => [] | _ => c_dot :: ext end) |}.
Proof.
  intros d a b ext now F q Ha Hb He. unfold backup_path, file_stem, extension. cbn [p_name option_map]. unfold stem_and_extension at 1 2.
  replace (a ++ c_dot :: b ++ c_dot :: ext) with ((a ++ c_dot :: b) ++ c_dot :: ext) by (rewrite <- app_assoc; reflexivity). rewrite last_dot_app by exact He.
  destruct (a ++ c_dot :: b) as [|x l] eqn:Q; [destruct a; discriminate|]. rewrite <- Q. cbn [fst snd]. intro H.
  destruct (first_unused F _) as [r|] eqn:U; [|discriminate]. injection H as <-. apply first_unused_spec in U as [U _]. apply in_map_iff in U as (t & <- & I). apply timestamps_no_dot in I.
  unfold backup_name, set_extension, stem_and_extension. cbn [p_dir]. f_equal. f_equal.
  replace ((a ++ c_dot :: b) ++ lit "-" ++ t) with (a ++ c_dot :: (b ++ lit "-" ++ t)) by (rewrite <- app_assoc; reflexivity).
  rewrite last_dot_app; [destruct a; [contradiction|reflexivity]|]. intro J. apply in_app_iff in J as [J|J]; [exact (Hb J)|]. apply in_app_iff in J as [J|J]; [destruct J as [J|[]]; discriminate|exact (I J)].
Qed.
Print Assumptions C37_dotted_refuted.
(** so there is at most one backup of such a file, ever. *)
Theorem C37_second_backup_refuted : forall d a b ext bs F cr now now', a <> [] -> ~ In c_dot b -> ~ In c_dot ext ->
  let p := {| p_dir := d; p_name := Some (a ++ c_dot :: b ++ c_dot :: ext) |} in
  forall q F', backup_file cr now F p = (Ok q, F') -> exists e, backup_path now' (backups F' bs) p = Err e.
Proof.
  intros d a b ext bs F cr now now' Ha Hb He p q F' B. destruct (C37_backup _ _ _ _ _ _ B) as (_ & Pn & Qc & _).
  assert (Q : q = {| p_dir := d; p_name := Some (a ++ match ext with [] => [] | _ => c_dot :: ext end) |}).
  { apply (C37_dotted_refuted d a b ext now F); auto. unfold backup_file in B. fold p. destruct (backup_path now F p) as [q0| | |]; try discriminate. unfold copy_file in B. destruct (F p); [|discriminate]. destruct (cr q0); [|discriminate]. injection B as -> _. reflexivity. }
  destruct (F p) as [t|] eqn:P; [|contradiction]. pose proof (C37_history bs F' q t Qc) as K.
  destruct (backup_path now' (backups F' bs) p) as [q'|e| |] eqn:B'; [|eauto| |].
  - pose proof (backup_path_unused _ _ _ _ B') as N. unfold p in B'. apply C37_dotted_refuted in B'; auto. congruence.
  - exfalso. unfold backup_path in B'. destruct (file_stem p); [|discriminate]. destruct (extension p); [|discriminate]. destruct (first_unused _ _); discriminate.
  - exfalso. unfold backup_path in B'. destruct (file_stem p); [|discriminate]. destruct (extension p); [|discriminate]. destruct (first_unused _ _); discriminate.
Qed.
Print Assumptions C37_second_backup_refuted.
Example C37_dotted_example : backup_path ex_now (one_file (file_named "report.v1.csv") "a") (file_named "report.v1.csv") = Ok (file_named "report.csv").
Proof. vm_compute. reflexivity. Qed.

(** ** C70: a backup's name tells when it was made *)
(** [number w s n]: [s] is [n] written with [w] digits *)
Definition number (w : nat) (s : str) (n : N) : Prop := length s = w /\ forallb is_ascii_digit s = true /\ digits_value s = n.
(** a moment as chrono's local time gives it; a leap second is one with nanoseconds above 10^9 *)
Definition moment (t : clock) : Prop :=
  (year t <= 9999 /\ 1 <= month t <= 12 /\ 1 <= day t <= 31 /\ hour t <= 23 /\ minute t <= 59 /\ second t <= 59 /\ nanosecond t < 10 ^ 9)%N.
Lemma digits_value_zeros k s : digits_value (repeat 48%N k ++ s) = digits_value s.
Proof. unfold digits_value. rewrite fold_left_app. f_equal. induction k; [reflexivity|]. cbn. exact IHk. Qed.
Lemma dec_no_leading_zero n s : dec n = 48%N :: s -> s = [].
Proof.
  unfold dec. pose proof (DecimalN.Unsigned.to_of (N.to_uint n)) as H. rewrite DecimalN.Unsigned.of_to in H.
  destruct (N.to_uint n) as [|d| | | | | | | | |]; cbn [uint_str]; try discriminate. intro E. injection E as <-.
  unfold Decimal.unorm in H. cbn [Decimal.nzhead] in H. destruct (Decimal.nzhead d) eqn:Z; try discriminate.
  - injection H as ->. reflexivity.
  - exfalso. eapply DecimalFacts.nzhead_nonzero; eauto.
Qed.
Lemma dec_length_bound n w : (n < 10 ^ N.of_nat w)%N -> 0 < w -> length (dec n) <= w.
Proof.
  intros H Hw. destruct (Nat.le_gt_cases (length (dec n)) w) as [|G]; [assumption|exfalso].
  pose proof (dec_all_digits n) as D. pose proof (dec_value n) as V. unfold digits_value in V.
  pose proof (dec_no_leading_zero n) as Z0.
  destruct (dec n) as [|c s] eqn:E; [cbn in G; lia|].
  assert (Hc : (49 <= c)%N).
  { pose proof (dec_digits n) as DD. rewrite E in DD. cbn in DD. apply andb_prop in DD as [DD _]. unfold is_ascii_digit in DD.
    destruct (N.eqb_spec c 48) as [->|]; [|lia]. rewrite (Z0 s eq_refl) in G. cbn in G. lia. }
  assert (B : forall l acc, (acc * 10 ^ N.of_nat (length l) <= fold_left (fun acc c => acc * 10 + (c - 48)) l acc)%N).
  { clear. induction l as [|c l IH]; intro acc; cbn [fold_left length]; [lia|]. specialize (IH (acc * 10 + (c - 48))%N).
    rewrite Nat2N.inj_succ, N.pow_succ_r'. nia. }
  cbn [fold_left] in V. specialize (B s (0 * 10 + (c - 48))%N). rewrite V in B. cbn [length] in G.
  assert (P : (10 ^ N.of_nat w <= 10 ^ N.of_nat (length s))%N) by (apply N.pow_le_mono_r; lia). nia.
Qed.

Lemma pad0_number w n : (n < 10 ^ N.of_nat w)%N -> 0 < w -> number w (pad0 w n) n.
Proof.
  intros H Hw. pose proof (dec_length_bound n w H Hw) as L. unfold number, pad0. repeat split.
  - rewrite app_length, repeat_length. lia.
  - rewrite forallb_app, dec_digits, Bool.andb_true_r. apply forallb_forall. intros c Hc. apply repeat_spec in Hc. subst c. reflexivity.
  - rewrite digits_value_zeros. apply dec_value.
Qed.
(** C70: the names tried carry the date, then also the hour and minute on a 12-hour clock, then the second, then the nanosecond. *)
Theorem C70_timestamps : forall now, moment now ->
  exists y mo d h mi s ns half,
    number 4 y (year now) /\ number 2 mo (month now) /\ number 2 d (day now) /\ number 2 mi (minute now) /\ number 2 s (second now) /\ number 9 ns (nanosecond now)
    /\ (exists h12, number 2 h h12 /\ 1 <= h12 <= 12 /\ (half = lit "AM" /\ hour now = h12 mod 12 \/ half = lit "PM" /\ hour now = h12 mod 12 + 12))%N
    /\ let date := y ++ lit "_" ++ mo ++ lit "_" ++ d in
       timestamps now = [date; date ++ lit "-" ++ h ++ lit "_" ++ mi ++ half; date ++ lit "-" ++ h ++ lit "_" ++ mi ++ lit "_" ++ s ++ half;
                         date ++ lit "-" ++ h ++ lit "_" ++ mi ++ lit "_" ++ s ++ lit "_" ++ ns ++ half].
Proof.
  intros now (Y & Mo & D & H & Mi & Se & Ns).
  exists (pad0 4 (year now)), (pad0 2 (month now)), (pad0 2 (day now)), (pad0 2 (hour12 (hour now))), (pad0 2 (minute now)), (pad0 2 (second now)), (pad0 9 (nanosecond now)), (am_pm (hour now)).
  assert (H12 : (1 <= hour12 (hour now) <= 12)%N).
  { unfold hour12. pose proof (N.mod_upper_bound (hour now) 12 ltac:(lia)). destruct (N.eqb_spec (hour now mod 12) 0); lia. }
  repeat (split; [apply pad0_number; [cbn; lia|lia]|]). split.
  - exists (hour12 (hour now)). split; [apply pad0_number; [cbn; lia|lia]|]. split; [exact H12|]. clear - H. unfold am_pm, hour12.
    destruct (N.ltb_spec (hour now) 12) as [L|L].
    + left. split; [reflexivity|]. rewrite (N.mod_small (hour now) 12) by lia. destruct (N.eqb_spec (hour now) 0) as [->|]; [reflexivity|]. symmetry. apply N.mod_small. lia.
    + right. split; [reflexivity|]. assert (E : (hour now mod 12 = hour now - 12)%N).
      { replace (hour now) with (hour now - 12 + 1 * 12)%N at 1 by lia. rewrite N.mod_add by lia. apply N.mod_small. lia. }
      rewrite E. destruct (N.eqb_spec (hour now - 12) 0) as [Z|Z]; [change (12 mod 12)%N with 0%N; lia|]. rewrite N.mod_small by lia. lia.
  - cbv zeta. unfold timestamps. rewrite <- !app_assoc. reflexivity.
Qed.
Print Assumptions C70_timestamps.
Lemma app_same_length {A} (a a' b b' : list A) : length a = length a' -> a ++ b = a' ++ b' -> a = a' /\ b = b'.
Proof.
  revert a'. induction a as [|x a IH]; intros [|x' a'] L E; try discriminate; [auto|]. cbn in E. injection E as -> E.
  destruct (IH a' ltac:(cbn in L; lia) E) as [-> ->]. auto.
Qed.
Lemma number_inj w a a' n n' b b' : number w a n -> number w a' n' -> a ++ b = a' ++ b' -> n = n' /\ b = b'.
Proof. intros (L & _ & V) (L' & _ & V') E. destruct (app_same_length a a' b b' ltac:(congruence) E) as [-> ->]. split; congruence. Qed.
(** C70: so the longest of them tells the moment: no two moments have the same. *)
Theorem C70_moments_distinct : forall now later, moment now -> moment later ->
  nth 3 (timestamps now) [] = nth 3 (timestamps later) [] -> now = later.
Proof.
  intros now later Hn Hl E.
  destruct (C70_timestamps now Hn) as (y & mo & d & h & mi & s & ns & half & Y & Mo & D & Mi & Se & Ns & (h12 & H & R & Hf) & T).
  destruct (C70_timestamps later Hl) as (y' & mo' & d' & h' & mi' & s' & ns' & half' & Y' & Mo' & D' & Mi' & Se' & Ns' & (h12' & H' & R' & Hf') & T').
  cbv zeta in T, T'. rewrite T, T' in E. cbn [nth] in E. rewrite <- !app_assoc in E.
  destruct (number_inj 4 _ _ _ _ _ _ Y Y' E) as [E1 E2]. apply app_inv_head in E2.
  destruct (number_inj 2 _ _ _ _ _ _ Mo Mo' E2) as [E3 E4]. apply app_inv_head in E4.
  destruct (number_inj 2 _ _ _ _ _ _ D D' E4) as [E5 E6]. apply app_inv_head in E6.
  destruct (number_inj 2 _ _ _ _ _ _ H H' E6) as [E7 E8]. apply app_inv_head in E8.
  destruct (number_inj 2 _ _ _ _ _ _ Mi Mi' E8) as [E9 F1]. apply app_inv_head in F1.
  destruct (number_inj 2 _ _ _ _ _ _ Se Se' F1) as [F2 F3]. apply app_inv_head in F3.
  destruct (number_inj 9 _ _ _ _ _ _ Ns Ns' F3) as [F4 F5].
  assert (F6 : hour now = hour later).
  { subst half' h12'. destruct Hf as [[P ->]|[P ->]], Hf' as [[P' ->]|[P' ->]]; try reflexivity; rewrite P in P'; discriminate. }
  destruct now, later. cbn in *. congruence.
Qed.
Print Assumptions C70_moments_distinct.
Example C70_nonvacuous : moment ex_now /\ timestamps {| year := 2024; month := 3; day := 7; hour := 0; minute := 4; second := 5; nanosecond := 6 |}
  = map lit ["2024_03_07"; "2024_03_07-12_04AM"; "2024_03_07-12_04_05AM"; "2024_03_07-12_04_05_000000006AM"]%string.
Proof. split; [unfold moment; cbn; lia|vm_compute; reflexivity]. Qed.

(** ** C44 *)
(** The file name cut at its last dot; something stands before that dot. *)
Definition name_with (d : list str) (stem ext : str) : path := {| p_dir := d; p_name := Some (stem ++ c_dot :: ext) |}.
Definition caseless (a : str) (b : string) : Prop := ascii_lower a = lit b.
Lemma extension_of d stem ext : stem <> [] -> ~ In c_dot ext -> extension (name_with d stem ext) = Some ext.
Proof.
  intros Hs He. unfold extension, name_with. cbn [p_name]. unfold stem_and_extension. rewrite last_dot_app by exact He. destruct stem; [contradiction|reflexivity].
Qed.
Lemma same_caseless a b : ascii_lower (lit b) = lit b -> (same_ignoring_case a b = true <-> caseless a b).
Proof.
  intro H. unfold same_ignoring_case, caseless. rewrite H. destruct (str_eqb_spec (ascii_lower a) (lit b)); split; congruence.
Qed.
Theorem C44_by_extension : forall d stem ext, stem <> [] -> ~ In c_dot ext ->
  (caseless ext "csv" -> from_filename (name_with d stem ext) = Ok (OutCsv (name_with d stem ext)))
  /\ (caseless ext "xlsx" \/ caseless ext "xlsm" \/ caseless ext "xltx" \/ caseless ext "xltm" -> from_filename (name_with d stem ext) = Ok (OutExcel (name_with d stem ext)))
  /\ (caseless ext "ods" -> from_filename (name_with d stem ext) = Ok (OutOpenDocument (name_with d stem ext)))
  /\ (~ caseless ext "csv" -> ~ caseless ext "xlsx" -> ~ caseless ext "xlsm" -> ~ caseless ext "xltx" -> ~ caseless ext "xltm" -> ~ caseless ext "ods" ->
      from_filename (name_with d stem ext) = Err (UnsupportedExtension ext)).
Proof.
  intros d stem ext Hs He. unfold from_filename. rewrite extension_of by assumption.
  assert (E : forall b, ascii_lower (lit b) = lit b -> same_ignoring_case ext b = if list_eq_dec N.eq_dec (ascii_lower ext) (lit b) then true else false).
  { intros b H. pose proof (same_caseless ext b H) as I. unfold caseless in I. destruct (list_eq_dec N.eq_dec (ascii_lower ext) (lit b)); destruct (same_ignoring_case ext b); intuition congruence. }
  rewrite !E by reflexivity. unfold caseless.
  destruct (list_eq_dec N.eq_dec (ascii_lower ext) (lit "csv")) as [C|C]; [split; [reflexivity|]; split; [intros H; exfalso; rewrite C in H; vm_compute in H; intuition discriminate|]; split; [intros H; exfalso; rewrite C in H; discriminate|contradiction]|].
  split; [contradiction|].
  destruct (list_eq_dec N.eq_dec (ascii_lower ext) (lit "xlsx")) as [C1|C1];
  destruct (list_eq_dec N.eq_dec (ascii_lower ext) (lit "xlsm")) as [C2|C2];
  destruct (list_eq_dec N.eq_dec (ascii_lower ext) (lit "xltx")) as [C3|C3];
  destruct (list_eq_dec N.eq_dec (ascii_lower ext) (lit "xltm")) as [C4|C4]; cbn [orb];
  try (split; [reflexivity|]; split; [intro H; exfalso; first [rewrite C1 in H|rewrite C2 in H|rewrite C3 in H|rewrite C4 in H]; discriminate|intros; contradiction]).
  split; [intuition contradiction|]. destruct (list_eq_dec N.eq_dec (ascii_lower ext) (lit "ods")) as [C5|C5]; split; try reflexivity; try contradiction; intros; contradiction.
Qed.
Print Assumptions C44_by_extension.
(** No dot, or nothing before the only dot: an error. *)
Theorem C44_no_extension : forall d name, (~ In c_dot name \/ exists b, name = c_dot :: b /\ ~ In c_dot b) -> from_filename {| p_dir := d; p_name := Some name |} = Err NoExtension.
Proof.
  intros d name H. unfold from_filename, extension. cbn [p_name]. unfold stem_and_extension. destruct H as [H|(b & -> & H)].
  - apply last_dot_none in H. rewrite H. reflexivity.
  - change (c_dot :: b) with ([] ++ c_dot :: b). rewrite last_dot_app by exact H. reflexivity.
Qed.
Print Assumptions C44_no_extension.
(** A sheet id takes precedence over a file name. *)
Theorem C44_sheet_id_partial : forall u id file, (forall c, In c id -> is_alnum u c = true) -> choose_output u (Some id) file = Ok (OutGoogleSheets id).
Proof. intros u id file H. unfold choose_output, from_google_sheet_id. apply forallb_forall in H. rewrite H. reflexivity. Qed.
Print Assumptions C44_sheet_id_partial.
(** C44 refuted: the ids that Google uses may have hyphens and underscores in them; these are refused. *)
Theorem C44_sheet_id_refuted : forall u a b file, is_alnum u 45 = false -> choose_output u (Some (a ++ [45%N] ++ b)) file = Err BadSheetId.
Proof. intros u a b file H. unfold choose_output, from_google_sheet_id. rewrite !forallb_app. cbn [forallb]. rewrite H. cbn [andb]. rewrite andb_false_r. reflexivity. Qed.
Print Assumptions C44_sheet_id_refuted.
Example C44_nonvacuous : from_filename (file_named "a.b.CsV") = Ok (OutCsv (file_named "a.b.CsV")) /\ from_filename (file_named "a.xlsm") = Ok (OutExcel (file_named "a.xlsm")) /\ from_filename (file_named ".csv") = Err NoExtension
  /\ from_filename (file_named "a.csv.txt") = Err (UnsupportedExtension (lit "txt")).
Proof. vm_compute. auto. Qed.

(** ** C64: runs of the program *)
(** A run that does not succeed leaves every existing file, the target included, as it was. *)
Theorem C64_failed : forall read creatable writable now backup overwrite p compiled F res F',
  main_program read creatable writable now backup overwrite p compiled F = (res, F') -> res <> Done ->
  F' p = F p /\ forall r t, F r = Some t -> F' r = Some t.
Proof.
  intros read cr wr now bk ow p comp F res F' H N.
  assert (W : forall s G r G', write_csv read wr ow p s G = (r, G') -> r <> Done -> G' = G).
  { intros s G r G' E D. unfold write_csv in E. destruct (match G p with Some text => read text | None => Some [] end); [destruct wr|]; injection E as <- <-; congruence. }
  unfold main_program in H. destruct comp as [m|e| |]; try (injection H as <- <-; auto). destruct bk; [|apply W in H; subst; auto].
  destruct (C37_failed cr now F p) as [(q & F1 & B)|(e & B)]; rewrite B in H.
  - apply W in H; [|exact N]. subst F'. destruct (C37_backup _ _ _ _ _ _ B) as (Q & P & _ & O). split.
    + apply O. intros ->. congruence.
    + intros r t R. rewrite O; [exact R|]. intros ->. congruence.
  - injection H as <- <-. auto.
Qed.
Print Assumptions C64_failed.
(** A run that succeeds changes no existing file but the target; with a backup, the old contents of the target are in a new file. *)
Theorem C64_done : forall read creatable writable now backup overwrite p compiled F F',
  main_program read creatable writable now backup overwrite p compiled F = (Done, F') ->
  (exists m records, compiled = Ok m /\ match F p with Some text => read text | None => Some [] end = Some records
    /\ F' p = Some (csv_text (csv_write overwrite records (pr_sheet (m_program m)))))
  /\ (forall r t, r <> p -> F r = Some t -> F' r = Some t)
  /\ (backup = true -> exists q, F q = None /\ F' q = F p /\ F p <> None).
Proof.
  intros read cr wr now bk ow p comp F F' H.
  assert (W : forall s G G', write_csv read wr ow p s G = (Done, G') -> exists records, match G p with Some text => read text | None => Some [] end = Some records /\ G' = write_file G p (csv_text (csv_write ow records s))).
  { intros s G G' E. unfold write_csv in E. destruct (match G p with Some text => read text | None => Some [] end) as [records|]; [destruct wr|]; try discriminate. injection E as <-. eauto. }
  unfold main_program in H. destruct comp as [m|e| |]; try discriminate. destruct bk.
  - destruct (C37_failed cr now F p) as [(q & F1 & B)|(e & B)]; rewrite B in H; [|discriminate]. apply W in H as (records & R & ->). destruct (C37_backup _ _ _ _ _ _ B) as (Q & P & C & O).
    assert (Np : q <> p) by (intros ->; congruence). rewrite (O p) in R by congruence. split; [|split].
    + exists m, records. rewrite write_same. auto.
    + intros r t Nr Fr. rewrite write_other by exact Nr. rewrite O; [exact Fr|]. intros ->. congruence.
    + intros _. exists q. rewrite write_other by exact Np. auto.
  - apply W in H as (records & R & ->). split; [|split].
    + exists m, records. rewrite write_same. auto.
    + intros r t Nr Fr. rewrite write_other by exact Nr. exact Fr.
    + discriminate.
Qed.
Print Assumptions C64_done.
(** Wherever a run with a backup is killed: the old contents of the target are in the target or in a new file, and all other files are as they were. *)
Theorem C64_crash : forall read creatable writable now overwrite p compiled F F',
  crash_state read creatable writable now true overwrite p compiled F F' ->
  (F' p = F p \/ exists q, F q = None /\ F' q = F p) /\ forall r t, r <> p -> F r = Some t -> F' r = Some t.
Proof.
  intros read cr wr now ow p comp F F' H. inversion H as [|m q contents n Hc Hb B P C|m F1 records n Hc Hb R W]; subst.
  - auto.
  - apply backup_path_unused in B. split; [left; apply write_other; intros ->; congruence|]. intros r t _ Fr. rewrite write_other; [exact Fr|]. intros ->. congruence.
  - destruct Hb as (q & B). destruct (C37_backup _ _ _ _ _ _ B) as (Q & P & C & O). assert (Np : q <> p) by (intros ->; congruence). split.
    + right. exists q. rewrite write_other by exact Np. auto.
    + intros r t Nr Fr. rewrite write_other by exact Nr. rewrite O; [exact Fr|]. intros ->. congruence.
Qed.
Print Assumptions C64_crash.
(** C64 refuted (1): without a backup, a run that is killed while it writes can lose the old contents of the target. *)
Theorem C64_crash_refuted : forall p old m, exists F', crash_state (fun t => Some (csv_read t)) (fun _ => true) true ex_now false false p (Ok m) (write_file (fun _ => None) p old) F'
  /\ F' p = Some [] /\ forall r, r <> p -> F' r = None.
Proof.
  intros p old m. eexists. split.
  - eapply (cs_writing _ _ _ _ _ _ _ _ _ m _ _ 0); try reflexivity. rewrite write_same. reflexivity.
  - rewrite write_same. split; [reflexivity|]. intros r N. rewrite !write_other by exact N. reflexivity.
Qed.
Print Assumptions C64_crash_refuted.
(** (2): with --backup, a target that does not exist yet cannot be written. *)
Theorem C64_first_backup_refuted : forall read creatable writable now overwrite p m F, F p = None ->
  exists e, main_program read creatable writable now true overwrite p (Ok m) F = (Failure (BackupFailed e), F).
Proof.
  intros read cr wr now ow p m F P. unfold main_program. destruct (C37_failed cr now F p) as [(q & F1 & B)|(e & B)]; [destruct (C37_backup _ _ _ _ _ _ B) as (_ & Q & _); contradiction|].
  rewrite B. eauto.
Qed.
Print Assumptions C64_first_backup_refuted.

(** ** C65: writing again *)
Lemma nth_error_same {A} (a b : list A) : (forall i, nth_error a i = nth_error b i) -> a = b.
Proof.
  revert b. induction a as [|x a IH]; intros b H; destruct b as [|y b]; [reflexivity|specialize (H 0); discriminate|specialize (H 0); discriminate|].
  f_equal; [specialize (H 0); injection H as ->; reflexivity|]. apply IH. intro i. exact (H (S i)).
Qed.
Lemma rect_ext w (a b : list (list str)) : length a = length b -> (forall r, In r a -> length r = w) -> (forall r, In r b -> length r = w) ->
  (forall i j, i < length a -> j < w -> at_ a i j = at_ b i j) -> a = b.
Proof.
  revert b. induction a as [|r a IH]; intros b L A B H; destruct b as [|r' b]; try discriminate; [reflexivity|]. injection L as L. f_equal.
  - apply nth_error_same. intro j. destruct (Nat.lt_ge_cases j w) as [J|J].
    + specialize (H 0 j ltac:(cbn; lia) J). exact H.
    + rewrite !(proj2 (nth_error_None _ _)); [reflexivity| |]; [rewrite (B r') by (left; reflexivity)|rewrite (A r) by (left; reflexivity)]; exact J.
  - apply IH; [exact L| | |].
    + intros x I. apply A. right. exact I.
    + intros x I. apply B. right. exact I.
    + intros i j Hi Hj. exact (H (S i) j ltac:(cbn; lia) Hj).
Qed.
(** Writing the same sheet over its own output changes nothing. *)
Theorem C65_idempotent : forall overwrite records s, csv_write overwrite (csv_write overwrite records s) s = csv_write overwrite records s.
Proof.
  intros ow records s. destruct (C35_rectangular ow (csv_write ow records s) s) as [L1 W1]. destruct (C35_rectangular ow records s) as [L2 W2].
  apply (rect_ext (widest_row s)); [congruence|exact W1|exact W2|]. intros i j Hi Hj. rewrite L1 in Hi. rewrite C34_csv_cell by assumption.
  change (old_at (csv_write ow records s) i j) with (match at_ (csv_write ow records s) i j with Some v => v | None => [] end). rewrite C34_csv_cell by assumption. f_equal. destruct (cell_at s i j) as [c|]; [|reflexivity].
  destruct (old_at records i j) eqn:O; [destruct (show_cell c) eqn:Sc; [reflexivity|destruct ow; congruence]|]. destruct ow; [destruct (show_cell c); reflexivity|reflexivity].
Qed.
Print Assumptions C65_idempotent.
(** What is written is read back as it was: whatever is in the cells. *)
Lemma read_start f r x s : is_line_end x = false -> csv_read_go AtRecord f r (x :: s) = csv_read_go AtField f r (x :: s).
Proof. intro H. cbn [csv_read_go]. rewrite H. reflexivity. Qed.
Lemma read_end st f r c s : c = c_comma \/ c = c_nl -> st = AtField \/ st = InText \/ st = AfterQuote ->
  csv_read_go st f r (c :: s) = if (c =? c_comma)%N then csv_read_go AtField [] (r ++ [f]) s else (r ++ [f]) :: csv_read_go AtRecord [] [] s.
Proof. intros [->| ->] [->|[->| ->]]; reflexivity. Qed.
Lemma read_text r c s t : needs_quotes t = false -> c = c_comma \/ c = c_nl -> forall f,
  csv_read_go InText f r (t ++ c :: s) = csv_read_go InText (f ++ t) r (c :: s).
Proof.
  intros H C. induction t as [|x t IH]; intro f; [rewrite app_nil_r; reflexivity|]. unfold needs_quotes in H. cbn [existsb] in H. apply orb_false_elim in H as [Hx H]. apply orb_false_elim in Hx as [Hx Cr]. apply orb_false_elim in Hx as [Hx Nl]. apply orb_false_elim in Hx as [Cm Dq].
  cbn [app csv_read_go]. unfold is_line_end. rewrite Cm, Nl, Cr. cbn [orb]. rewrite IH by exact H. rewrite <- app_assoc. reflexivity.
Qed.
Lemma read_quoted r s t : forall f, csv_read_go InQuotes f r (doubled t ++ [c_dquote] ++ s) = csv_read_go AfterQuote (f ++ t) r s.
Proof.
  induction t as [|x t IH]; intro f; cbn [doubled flat_map app csv_read_go]; [rewrite N.eqb_refl, app_nil_r; reflexivity|]. fold (doubled t).
  destruct (N.eqb_spec x c_dquote) as [->|Nx].
  - cbn [app csv_read_go]. rewrite N.eqb_refl. change (doubled t ++ c_dquote :: s) with (doubled t ++ [c_dquote] ++ s). rewrite IH, <- app_assoc. reflexivity.
  - cbn [app csv_read_go]. destruct (N.eqb_spec x c_dquote); [contradiction|]. change (doubled t ++ c_dquote :: s) with (doubled t ++ [c_dquote] ++ s). rewrite IH, <- app_assoc. reflexivity.
Qed.
Lemma read_field r t c s : c = c_comma \/ c = c_nl ->
  csv_read_go AtField [] r (csv_field_text t ++ c :: s) = if (c =? c_comma)%N then csv_read_go AtField [] (r ++ [t]) s else (r ++ [t]) :: csv_read_go AtRecord [] [] s.
Proof.
  intro C. unfold csv_field_text. destruct (needs_quotes t) eqn:Q.
  - rewrite <- !app_assoc. cbn [app csv_read_go]. rewrite N.eqb_refl. change (doubled t ++ c_dquote :: c :: s) with (doubled t ++ [c_dquote] ++ c :: s). rewrite read_quoted. cbn [app]. apply read_end; auto.
  - destruct t as [|x t]; [apply read_end; auto|]. cbn [app]. unfold needs_quotes in Q. cbn [existsb] in Q. apply orb_false_elim in Q as [Hx H]. apply orb_false_elim in Hx as [Hx Cr]. apply orb_false_elim in Hx as [Hx Nl]. apply orb_false_elim in Hx as [Cm Dq].
    cbn [csv_read_go]. unfold is_line_end. rewrite Dq, Cm, Nl, Cr. cbn [orb]. cbn [app]. rewrite read_text by assumption. cbn [app]. apply read_end; auto.
Qed.
Lemma read_fields fs : forall r s, fs <> [] ->
  csv_read_go AtField [] r (join [c_comma] (map csv_field_text fs) ++ c_nl :: s) = (r ++ fs) :: csv_read_go AtRecord [] [] s.
Proof.
  induction fs as [|t fs IH]; intros r s H; [contradiction|]. destruct fs as [|t' fs].
  - cbn [map join]. rewrite read_field by auto. reflexivity.
  - change (join [c_comma] (map csv_field_text (t :: t' :: fs))) with (csv_field_text t ++ [c_comma] ++ join [c_comma] (map csv_field_text (t' :: fs))).
    rewrite <- !app_assoc. cbn [app]. rewrite read_field by auto. rewrite N.eqb_refl. rewrite IH by discriminate. rewrite <- app_assoc. reflexivity.
Qed.
Lemma field_text_start t : match csv_field_text t with [] => t = [] | x :: _ => is_line_end x = false end.
Proof.
  unfold csv_field_text. destruct (needs_quotes t) eqn:Q; [reflexivity|]. destruct t as [|x t]; [reflexivity|]. unfold needs_quotes in Q. cbn [existsb] in Q. apply orb_false_elim in Q as [Hx H]. apply orb_false_elim in Hx as [Hx Cr]. apply orb_false_elim in Hx as [Hx Nl].
  unfold is_line_end. rewrite Nl, Cr. reflexivity.
Qed.
Theorem C65_read_back : forall rs, (forall r, In r rs -> r <> []) -> csv_read (csv_text rs) = rs.
Proof.
  unfold csv_read. induction rs as [|r rs IH]; intro H; [reflexivity|]. cbn [csv_text flat_map]. fold (csv_text rs).
  assert (IH' : csv_read_go AtRecord [] [] (csv_text rs) = rs) by (apply IH; intros x I; apply H; right; exact I). specialize (H r (or_introl eq_refl)). clear IH.
  unfold csv_record_text. destruct (join [c_comma] (map csv_field_text r)) as [|x l] eqn:J.
  - assert (R : r = [[]]).
    { destruct r as [|t r]; [contradiction|]. destruct r as [|t' r]; [|exfalso; cbn [map join] in J; destruct (csv_field_text t); discriminate]. cbn [map join] in J. pose proof (field_text_start t) as F. rewrite J in F. subst. reflexivity. }
    subst r. change ([[]] :: csv_read_go AtRecord [] [] (csv_text rs) = [[]] :: rs). rewrite IH'. reflexivity.
  - rewrite <- app_assoc. cbn [app]. rewrite read_start.
    + change (x :: l ++ c_nl :: csv_text rs) with ((x :: l) ++ c_nl :: csv_text rs). rewrite <- J, read_fields by exact H. cbn [app]. rewrite IH'. reflexivity.
    + destruct r as [|t r]; [contradiction|]. cbn [map] in J. pose proof (field_text_start t) as F. destruct r as [|t' r]; cbn [map join] in J; destruct (csv_field_text t) as [|y m]; cbn [app] in J; try discriminate; injection J as <- _; auto.
Qed.
Print Assumptions C65_read_back.
(** The same when the last line has no line feed, as in a file saved by an editor that adds none. *)
Lemma read_text_last r t : needs_quotes t = false -> forall f, csv_read_go InText f r t = [r ++ [f ++ t]].
Proof.
  intro H. induction t as [|x t IH]; intro f; [rewrite app_nil_r; reflexivity|]. unfold needs_quotes in H. cbn [existsb] in H. apply orb_false_elim in H as [Hx H]. apply orb_false_elim in Hx as [Hx Cr]. apply orb_false_elim in Hx as [Hx Nl]. apply orb_false_elim in Hx as [Cm Dq].
  cbn [csv_read_go]. unfold is_line_end. rewrite Cm, Nl, Cr. cbn [orb]. rewrite IH by exact H. rewrite <- app_assoc. reflexivity.
Qed.
Lemma read_field_last r t : csv_read_go AtField [] r (csv_field_text t) = [r ++ [t]].
Proof.
  unfold csv_field_text. destruct (needs_quotes t) eqn:Q.
  - cbn [app csv_read_go]. rewrite N.eqb_refl. rewrite <- (app_nil_r (doubled t ++ [c_dquote])), <- app_assoc. rewrite read_quoted. reflexivity.
  - destruct t as [|x t]; [reflexivity|]. unfold needs_quotes in Q. cbn [existsb] in Q. apply orb_false_elim in Q as [Hx H]. apply orb_false_elim in Hx as [Hx Cr]. apply orb_false_elim in Hx as [Hx Nl]. apply orb_false_elim in Hx as [Cm Dq].
    cbn [csv_read_go]. unfold is_line_end. rewrite Dq, Cm, Nl, Cr. cbn [orb app]. rewrite read_text_last by exact H. reflexivity.
Qed.
Lemma read_fields_last fs : forall r, fs <> [] -> csv_read_go AtField [] r (join [c_comma] (map csv_field_text fs)) = [r ++ fs].
Proof.
  induction fs as [|t fs IH]; intros r H; [contradiction|]. destruct fs as [|t' fs].
  - cbn [map join]. rewrite read_field_last. reflexivity.
  - change (join [c_comma] (map csv_field_text (t :: t' :: fs))) with (csv_field_text t ++ [c_comma] ++ join [c_comma] (map csv_field_text (t' :: fs))).
    cbn [app]. rewrite read_field by auto. rewrite N.eqb_refl. rewrite IH by discriminate. rewrite <- app_assoc. reflexivity.
Qed.
Theorem C65_no_final_newline : forall rs r text, (forall r', In r' rs -> r' <> []) -> r <> [] -> csv_text [r] = text ++ [c_nl] -> csv_read (csv_text rs ++ text) = rs ++ [r].
Proof.
  unfold csv_read. intros rs r text H R T. revert H. induction rs as [|q rs IH]; intro H.
  - cbn [csv_text flat_map app] in *. rewrite app_nil_r in T. unfold csv_record_text in T.
    destruct (join [c_comma] (map csv_field_text r)) as [|x l] eqn:J.
    + assert (E1 : r = [[]]).
      { destruct r as [|t r]; [contradiction|]. destruct r as [|t' r]; [|exfalso; cbn [map join] in J; destruct (csv_field_text t); discriminate]. cbn [map join] in J. pose proof (field_text_start t) as F. rewrite J in F. subst. reflexivity. }
      change ([c_dquote; c_dquote; c_nl]) with ([c_dquote; c_dquote] ++ [c_nl]) in T. apply app_inv_tail in T. subst. reflexivity.
    + apply app_inv_tail in T. subst text. rewrite read_start.
      * rewrite <- J. apply read_fields_last. exact R.
      * destruct r as [|t r]; [contradiction|]. cbn [map] in J. pose proof (field_text_start t) as F. destruct r as [|t' r]; cbn [map join] in J; destruct (csv_field_text t) as [|y m]; cbn [app] in J; try discriminate; injection J as <- _; auto.
  - cbn [csv_text flat_map]. fold (csv_text rs). rewrite <- app_assoc.
    assert (IH' : csv_read_go AtRecord [] [] (csv_text rs ++ text) = rs ++ [r]) by (apply IH; intros x I; apply H; right; exact I). specialize (H q (or_introl eq_refl)). clear IH.
    unfold csv_record_text. destruct (join [c_comma] (map csv_field_text q)) as [|x l] eqn:J.
    + assert (Q : q = [[]]).
      { destruct q as [|t q]; [contradiction|]. destruct q as [|t' q]; [|exfalso; cbn [map join] in J; destruct (csv_field_text t); discriminate]. cbn [map join] in J. pose proof (field_text_start t) as F. rewrite J in F. subst. reflexivity. }
      subst q. change ([[]] :: csv_read_go AtRecord [] [] (csv_text rs ++ text) = [[]] :: rs ++ [r]). rewrite IH'. reflexivity.
    + rewrite <- app_assoc. cbn [app]. rewrite read_start.
      * change (x :: l ++ c_nl :: csv_text rs ++ text) with ((x :: l) ++ c_nl :: (csv_text rs ++ text)). rewrite <- J, read_fields by exact H. cbn [app]. rewrite IH'. reflexivity.
      * destruct q as [|t q]; [contradiction|]. cbn [map] in J. pose proof (field_text_start t) as F. destruct q as [|t' q]; cbn [map join] in J; destruct (csv_field_text t) as [|y m]; cbn [app] in J; try discriminate; injection J as <- _; auto.
Qed.
Print Assumptions C65_no_final_newline.
Example C65_no_final_newline_example : csv_text [[lit "b"; lit "c"]] = lit "b,c" ++ [c_nl] /\ csv_read (lit "a" ++ [c_nl] ++ lit "b,c") = [[lit "a"]; [lit "b"; lit "c"]].
Proof. vm_compute. auto. Qed.
Example C65_read_example : csv_read (csv_text [[lit "a,b"; lit "say ""hi"""]; [[]]; [lit "c"; []]]) = [[lit "a,b"; lit "say ""hi"""]; [[]]; [lit "c"; []]].
Proof. vm_compute. reflexivity. Qed.
(** Running the program again on the same source and its own output succeeds and does not change the file. *)
Lemma widest_zero s r : widest_row s = 0 -> forall ow ex ex', csv_rows ow 0 ex r = csv_rows ow 0 ex' r.
Proof.
  intro W. induction r as [|x r IH]; intros ow ex ex'; [reflexivity|]. cbn [csv_rows]. rewrite (IH ow (tl ex) (tl ex')). reflexivity.
Qed.
Theorem C65_second_run : forall creatable now overwrite p m F F1,
  main_program (fun t => Some (csv_read t)) creatable true now false overwrite p (Ok m) F = (Done, F1) ->
  exists F2, main_program (fun t => Some (csv_read t)) creatable true now false overwrite p (Ok m) F1 = (Done, F2) /\ forall r, F2 r = F1 r.
Proof.
  intros cr now ow p m F F1 H. destruct (C64_done _ _ _ _ _ _ _ _ _ _ H) as ((m' & records & Q & R & P) & _ & _). injection Q as <-.
  unfold main_program, write_csv. rewrite P. eexists. split; [reflexivity|]. intro r. unfold write_file at 1. destruct (file_eqb_spec r p) as [->|N]; [|reflexivity]. rewrite P. f_equal. f_equal.
  set (s := pr_sheet (m_program m)). destruct (Nat.eq_dec (widest_row s) 0) as [Z|Z].
  - unfold csv_write. rewrite Z. apply (widest_zero s). exact Z.
  - rewrite C65_read_back; [apply C65_idempotent|]. intros x I E. subst x. destruct (C35_rectangular ow records s) as [_ W]. apply W in I. cbn in I. lia.
Qed.
Print Assumptions C65_second_run.
