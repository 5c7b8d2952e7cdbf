(** * CellProofs: the cell parser on ASCII fields: totality, soundness and completeness with respect
    to CellSpec.v. *)
From Verif Require Import Base BaseProofs Csvp Ast AstLexer AstParser AstLexerProofs Options CellLexer CellParser CellSpec.
From Coq Require Import ZifyBool ZifyN.

(** ** Generalities *)
Lemma ascii_not_ws_alnum u c : is_ascii c = true -> is_alnum u c = is_ascii_alnum c.
Proof. intro H. unfold is_alnum. rewrite H. reflexivity. Qed.
Lemma ascii_word u c : is_ascii c = true -> is_word u c = is_ascii_word c.
Proof. intro H. unfold is_word. rewrite H. reflexivity. Qed.
Lemma ascii_digit u c : is_ascii c = true -> is_digit u c = is_ascii_digit c.
Proof. intro H. unfold is_digit. rewrite H. reflexivity. Qed.

Definition ascii (s : str) : Prop := forallb is_ascii s = true.
Lemma ascii_app a b : ascii (a ++ b) <-> ascii a /\ ascii b.
Proof. unfold ascii. rewrite forallb_app, andb_true_iff. reflexivity. Qed.
Lemma ascii_cons c s : ascii (c :: s) <-> is_ascii c = true /\ ascii s.
Proof. unfold ascii. cbn [forallb]. rewrite andb_true_iff. reflexivity. Qed.
Lemma spaces_app a b : spaces (a ++ b) <-> spaces a /\ spaces b.
Proof. unfold spaces. rewrite forallb_app, andb_true_iff. reflexivity. Qed.

Lemma trim_start_split s : exists w, spaces w /\ s = w ++ trim_start s.
Proof.
  induction s as [|c s [w [Hw E]]]; [exists []; split; reflexivity|]. cbn [trim_start].
  destruct (is_ws c) eqn:Hc; [|exists []; split; reflexivity].
  exists (c :: w). split; [unfold spaces; cbn; rewrite Hc; exact Hw|]. cbn. f_equal. exact E.
Qed.
Definition head_not_ws (s : str) : Prop := match s with c :: _ => is_ws c = false | [] => True end.
Lemma trim_start_head s : head_not_ws (trim_start s).
Proof. induction s as [|c s IH]; [exact I|]. cbn. destruct (is_ws c) eqn:E; [exact IH|exact E]. Qed.
Lemma trim_start_spaces w t : spaces w -> trim_start (w ++ t) = trim_start t.
Proof.
  induction w as [|c w IH]; [reflexivity|]. unfold spaces. cbn. intro H. apply andb_true_iff in H as [-> Hw].
  apply IH. exact Hw.
Qed.
Lemma trim_start_id t : head_not_ws t -> trim_start t = t.
Proof. destruct t as [|c t]; [reflexivity|]. cbn. intros ->. reflexivity. Qed.

(** the lexer invariant on an ASCII field *)
Definition wf (f : field) (l : clexer) : Prop :=
  ascii (cl_input l) /\ cl_offset l + length (cl_input l) <= length (f_positions f)
  /\ 0 < length (f_positions f).

Lemma wf_report {A} f l : wf f l -> forall s, exists e, @report A f s (current_offset l) = Err e.
Proof.
  intros [_ [H0 H1]] s. unfold report, position_for_offset, current_offset.
  destruct (Nat.leb_spec (length (f_positions f)) (cl_offset l - 1)) as [L|L]; [lia|].
  destruct (nth_error (f_positions f) (cl_offset l - 1)) as [p|] eqn:E; [eexists; reflexivity|].
  apply nth_error_None in E. lia.
Qed.
Lemma wf_unknown {A} f l : wf f l -> forall m, exists e, @unknown_string A f l m = Err e.
Proof. intros H m. apply wf_report. exact H. Qed.
(** a token built from a well-formed state can be reported *)
Definition tok_at (f : field) (t : ctoken) : Prop := forall A m, exists e, @token_error A f t m = Err e.
Lemma wf_token f l k s : wf f l -> tok_at f (match_token l k s).
Proof. intros H A m. apply (wf_report (A:=A)). exact H. Qed.

Lemma wf_step f l a b : wf f l -> cl_input l = a ++ b ->
  wf f {| cl_input := b; cl_offset := cl_offset l + utf8_len a |} /\ utf8_len a = length a /\ ascii a.
Proof.
  intros [Ha [Ho Hp]] E. rewrite E in *. apply ascii_app in Ha as [Ha Hb]. rewrite app_length in Ho.
  pose proof (utf8_len_ascii a Ha) as L. split; [|split; [exact L|exact Ha]].
  split; [exact Hb|]. cbn. split; [lia|exact Hp].
Qed.
Lemma wf_move {E} f l a b : wf f l -> cl_input l = a ++ b ->
  @move_input E l (utf8_len a) = Ok {| cl_input := b; cl_offset := cl_offset l + utf8_len a |}.
Proof.
  intros _ Eq. unfold move_input. rewrite Eq, byte_split_app. reflexivity.
Qed.

Lemma wf_take_ws f l : wf f l ->
  wf f (take_whitespace l) /\ exists w, spaces w /\ cl_input l = w ++ cl_input (take_whitespace l)
    /\ head_not_ws (cl_input (take_whitespace l)).
Proof.
  intro H. destruct (trim_start_split (cl_input l)) as [w [Hw E]].
  destruct (wf_step f l _ _ H E) as [W [Lw Hw']].
  assert (X : take_whitespace l = {| cl_input := trim_start (cl_input l); cl_offset := cl_offset l + utf8_len w |}).
  { unfold take_whitespace. f_equal. rewrite E at 1. rewrite utf8_len_app. lia. }
  rewrite X. split; [exact W|]. exists w. cbn. split; [exact Hw|]. split; [exact E|apply trim_start_head].
Qed.
Lemma take_ws_reads l w t : cl_input l = w ++ t -> spaces w -> head_not_ws t -> cl_input (take_whitespace l) = t.
Proof. intros E Hw Ht. cbn. rewrite E, trim_start_spaces, trim_start_id; auto. Qed.
Lemma take_ws_idem l : take_whitespace (take_whitespace l) = take_whitespace l.
Proof.
  unfold take_whitespace. cbn [cl_input cl_offset].
  rewrite (trim_start_id (trim_start (cl_input l)) (trim_start_head _)), Nat.sub_diag, Nat.add_0_r. reflexivity.
Qed.

(** ** Literals *)
Lemma take_ok f l sub : wf f l -> sub <> [] ->
  match take f l sub with
  | Ok l' => wf f l' /\ exists w, spaces w /\ cl_input l = w ++ sub ++ cl_input l'
  | Err _ => True | Panic | NoFuel => False
  end.
Proof.
  intros H Hs. unfold take. destruct (wf_take_ws f l H) as [W [w [Hw [E _]]]].
  destruct (strip_prefix sub (cl_input (take_whitespace l))) as [r|] eqn:S.
  - apply strip_prefix_spec in S. destruct (wf_step f _ _ _ W S) as [W' _]. split; [exact W'|].
    exists w. split; [exact Hw|]. cbn. rewrite E, S. reflexivity.
  - edestruct (wf_unknown (A:=clexer) f _ W) as [e ->]. exact I.
Qed.
Lemma take_complete f l w sub r : wf f l -> cl_input l = w ++ sub ++ r -> spaces w -> head_not_ws sub -> sub <> [] ->
  exists l', take f l sub = Ok l' /\ cl_input l' = r /\ wf f l'.
Proof.
  intros H E Hw Hs Hn. unfold take. destruct (wf_take_ws f l H) as [W _].
  assert (X : cl_input (take_whitespace l) = sub ++ r).
  { eapply take_ws_reads; eauto. destruct sub; [congruence|exact Hs]. }
  rewrite X. assert (P : strip_prefix sub (sub ++ r) = Some r).
  { clear. induction sub as [|c s IH]; cbn; [reflexivity|]. rewrite N.eqb_refl. exact IH. }
  rewrite P. eexists. split; [reflexivity|]. split; [reflexivity|]. apply (wf_step f _ sub r W X).
Qed.
Lemma strip_prefix_app sub r : strip_prefix sub (sub ++ r) = Some r.
Proof. induction sub as [|c s IH]; cbn; [reflexivity|]. rewrite N.eqb_refl. exact IH. Qed.
Lemma maybe_take_ok f l sub : wf f l ->
  match maybe_take l sub with
  | (Some l', _) => wf f l' /\ exists w, spaces w /\ cl_input l = w ++ sub ++ cl_input l'
  | (None, l') => wf f l' /\ head_not_ws (cl_input l') /\ (exists w, spaces w /\ cl_input l = w ++ cl_input l')
                  /\ strip_prefix sub (cl_input l') = None
  end.
Proof.
  intro H. unfold maybe_take. destruct (wf_take_ws f l H) as [W [w [Hw [E Hd]]]].
  destruct (strip_prefix sub (cl_input (take_whitespace l))) as [r|] eqn:S.
  - apply strip_prefix_spec in S. split; [apply (wf_step f _ _ _ W S)|].
    exists w. split; [exact Hw|]. cbn. rewrite E, S. reflexivity.
  - split; [exact W|]. split; [exact Hd|]. split; [exists w; auto|exact S].
Qed.

(** ** Runs of characters *)
Lemma take_while_ok f l k p : wf f l -> (forall c, p c = true -> is_ws c = false) ->
  match take_while f l k p with
  | Ok (t, l') => wf f l' /\ tok_at f t /\ ct_kind t = k
      /\ (exists w, spaces w /\ cl_input l = w ++ ct_text t ++ cl_input l') /\ ct_text t <> [] /\ forallb p (ct_text t) = true
      /\ ascii (ct_text t)
  | Err _ => True | Panic | NoFuel => False
  end.
Proof.
  intros H Hp. unfold take_while. destruct (wf_take_ws f l H) as [W [w [Hw [E _]]]].
  destruct (span p (cl_input (take_whitespace l))) as [m r] eqn:S. apply span_spec in S as [S [Hm _]].
  destruct m as [|c m]; [edestruct (wf_unknown (A:=ctoken * clexer) f _ W) as [e ->]; exact I|].
  rewrite (wf_move f _ _ _ W S). cbn [bind]. destruct (wf_step f _ _ _ W S) as [W' [_ Ha]].
  split; [exact W'|]. split; [apply wf_token; exact W'|]. split; [reflexivity|]. split.
  - exists w. split; [exact Hw|]. cbn [match_token ct_text cl_input]. rewrite E, S. reflexivity.
  - cbn [match_token ct_text]. split; [discriminate|]. split; [exact Hm|exact Ha].
Qed.
Lemma take_while_complete f l k p w m r : wf f l -> cl_input l = w ++ m ++ r -> spaces w ->
  (forall c, p c = true -> is_ws c = false) -> m <> [] -> forallb p m = true ->
  match r with c :: _ => p c = false | [] => True end ->
  exists t l', take_while f l k p = Ok (t, l') /\ cl_input l' = r /\ wf f l' /\ ct_text t = m /\ ct_kind t = k /\ tok_at f t.
Proof.
  intros H E Hw Hp Hn Hm Hr. unfold take_while. destruct (wf_take_ws f l H) as [W _].
  assert (X : cl_input (take_whitespace l) = m ++ r).
  { eapply take_ws_reads; eauto. destruct m as [|c m]; [congruence|]. cbn in Hm. apply andb_true_iff in Hm as [Hc _].
    cbn. auto. }
  rewrite X, span_app by assumption. destruct m as [|c m]; [congruence|].
  rewrite (wf_move f _ _ _ W X). cbn [bind]. destruct (wf_step f _ _ _ W X) as [W' _].
  do 2 eexists. split; [reflexivity|]. split; [reflexivity|]. split; [exact W'|]. split; [reflexivity|]. split; [reflexivity|].
  apply wf_token; exact W'.
Qed.
