(** * CellLocal: reading the option lists of a cell does not depend on what follows them. *)
From Verif Require Import Base BaseProofs Csvp Ast AstLexer AstParser AstLexerProofs Options CellLexer CellParser CellSpec CellProofs CellProofs2 CellProofs3 CellProofs4 CellProofs5 CellProofs6 CellProofs7 CellProofs8 ReadTerminates.
From Coq Require Import ZifyBool ZifyN.

(** two texts that agree up to a closing of a list *)
Definition sim (a b : str) : Prop := exists p x y, a = p ++ lit "]]" ++ x /\ b = p ++ lit "]]" ++ y.
Lemma sim_app m a b : sim a b -> sim (m ++ a) (m ++ b).
Proof. intros [p [x [y [-> ->]]]]. exists (m ++ p), x, y. rewrite <- !app_assoc. auto. Qed.
Lemma sim_head a b : sim a b -> exists c a' b', a = c :: a' /\ b = c :: b'.
Proof. intros [[|c p] [x [y [-> ->]]]]; cbn; eauto. Qed.
Lemma sim_two a b : sim a b -> exists c d a' b', a = c :: d :: a' /\ b = c :: d :: b'.
Proof. intros [[|c [|d p]] [x [y [-> ->]]]]; cbn; eauto 6. Qed.
Lemma sim_tail c a b : sim (c :: a) (c :: b) -> c <> c_rbracket -> sim a b.
Proof.
  intros [[|d p] [x [y [E1 E2]]]] H; cbn in E1, E2; injection E1 as -> E1; [destruct H; reflexivity|]. injection E2 as E2.
  exists p, x, y. auto.
Qed.

(** [p] reads [m] and looks no further than the end of the list *)
Definition local {A} (p : parser A) : Prop := forall f l x l', p f l = Ok (x, l') ->
  exists m, cl_input l = m ++ cl_input l' /\ (ascii m -> forall f2 r2, sim (cl_input l') r2 ->
    p f2 {| cl_input := m ++ r2; cl_offset := cl_offset l |} = Ok (x, {| cl_input := r2; cl_offset := cl_offset l' |})).
Lemma local_bind {A B} (p : parser A) (q : A -> parser B) : local p -> (forall a, local (q a)) ->
  local (fun f l => do (a, l1) <- p f l; q a f l1).
Proof.
  intros Hp Hq f l x l' H. destruct (p f l) as [[a l1]| | |] eqn:E; try discriminate H. cbn [bind] in H.
  destruct (Hp f l a l1 E) as [m1 [E1 L1]]. destruct (Hq a f l1 x l' H) as [m2 [E2 L2]].
  exists (m1 ++ m2). split; [rewrite E1, E2, app_assoc; reflexivity|]. intros Ha f2 r2 Hr. apply ascii_app in Ha as [A1 A2].
  rewrite <- app_assoc, (L1 A1 f2 (m2 ++ r2)) by (rewrite E2; apply sim_app; exact Hr). cbn [bind]. exact (L2 A2 f2 r2 Hr).
Qed.
Lemma local_ext {A} (p q : parser A) : (forall f l, p f l = q f l) -> local p -> local q.
Proof. intros E H f l x l' Hq. rewrite <- E in Hq. destruct (H f l x l' Hq) as [m [E1 L]]. exists m. split; [exact E1|]. intros. rewrite <- E. auto. Qed.
Lemma local_ret {A} (a : A) : local (fun _ l => Ok (a, l)).
Proof. intros f l x l' H. injection H as <- <-. exists []. split; [reflexivity|]. intros _ f2 r2 _. reflexivity. Qed.
Lemma local_map {A B} (g : A -> B) (p : parser A) : local p -> local (pmap g p).
Proof. intro H. unfold pmap. apply local_bind; [exact H|]. intro a. apply local_ret. Qed.
(** a conversion whose result does not depend on the field *)
Definition steady {A} (c : field -> outcome cell_error A) : Prop := forall f f2 v, c f = Ok v -> c f2 = Ok v.
Lemma local_steady {A B} (c : field -> outcome cell_error A) (q : A -> parser B) : steady c -> (forall a, local (q a)) ->
  local (fun f l => do v <- c f; q v f l).
Proof.
  intros Hc Hq f l x l' H. destruct (c f) as [v| | |] eqn:E; try discriminate H. cbn [bind] in H. destruct (Hq v f l x l' H) as [m [E1 L]].
  exists m. split; [exact E1|]. intros Ha f2 r2 Hr. rewrite (Hc f f2 v E). cbn [bind]. auto.
Qed.
Lemma token_error_not_ok {A} f t m v : @token_error A f t m = Ok v -> False.
Proof. unfold token_error, report. destruct (position_for_offset f _); discriminate. Qed.
Lemma unknown_not_ok {A} f l m v : @unknown_string A f l m = Ok v -> False.
Proof. unfold unknown_string, report. destruct (position_for_offset f _); discriminate. Qed.
Lemma steady_or_error {A} t m (x : option A) : steady (fun f => or_error f t m x).
Proof. intros f f2 v H. destruct x; [exact H|]. destruct (token_error_not_ok _ _ _ _ H). Qed.
Lemma steady_rgb t : steady (fun f => rgb_of_token f t).
Proof. intros f f2 v H. unfold rgb_of_token in *. destruct (parse_rgb (ct_text t)); auto. destruct (token_error_not_ok _ _ _ _ H). Qed.

(** ** Lexing *)
Lemma take_ws_at m r o : (exists w, spaces w /\ m = w) -> head_not_ws r ->
  take_whitespace {| cl_input := m ++ r; cl_offset := o |} = {| cl_input := r; cl_offset := o + utf8_len m |}.
Proof.
  intros [w [Hw ->]] Hr. unfold take_whitespace. cbn [cl_input cl_offset]. rewrite trim_start_spaces, trim_start_id by assumption.
  f_equal. rewrite utf8_len_app. lia.
Qed.
Lemma take_ws_split l : exists w r, spaces w /\ cl_input l = w ++ r /\ head_not_ws r
  /\ take_whitespace l = {| cl_input := r; cl_offset := cl_offset l + utf8_len w |}.
Proof.
  destruct (trim_start_split (cl_input l)) as [w [Hw E]]. exists w, (trim_start (cl_input l)). split; [exact Hw|]. split; [exact E|]. split; [apply trim_start_head|].
  unfold take_whitespace. f_equal. rewrite E at 1. rewrite utf8_len_app. lia.
Qed.
Definition take_p (sub : str) : parser unit := fun f l => do l1 <- take f l sub; Ok (tt, l1).
Lemma local_take sub : sub <> [] -> head_not_ws sub -> local (take_p sub).
Proof.
  intros Hn Hw f l x l' H. unfold take_p, take in H. destruct (take_ws_split l) as [w [s [Hws [E [Hh Ho]]]]]. rewrite Ho in H. cbn [cl_input cl_offset] in H.
  destruct (strip_prefix sub s) as [r|] eqn:S.
  2: { destruct (unknown_string f _ _) eqn:U; try discriminate H. destruct (unknown_not_ok _ _ _ _ U). }
  cbn [bind] in H. injection H as <- <-. apply strip_prefix_spec in S. exists (w ++ sub). split; [rewrite E, S, app_assoc; reflexivity|].
  intros Ha f2 r2 Hr. unfold take_p, take. rewrite <- app_assoc. rewrite take_ws_at; [|eauto|destruct sub; [congruence|exact Hw]].
  cbn [cl_input cl_offset]. rewrite CellProofs.strip_prefix_app. reflexivity.
Qed.
Lemma span_stop (q : char -> bool) a b : sim a b -> match a with c :: _ => q c = false | [] => True end -> forall m, forallb q m = true -> span q (m ++ b) = (m, b).
Proof.
  intros S Ha m. destruct (sim_head a b S) as [c [a' [b' [-> ->]]]]. induction m as [|d m IH]; cbn [app span forallb]; intro H.
  - rewrite Ha. reflexivity.
  - apply andb_prop in H as [Hd H]. rewrite Hd, (IH H). reflexivity.
Qed.
Lemma span_facts (q : char -> bool) s m r : span q s = (m, r) -> s = m ++ r /\ forallb q m = true /\ match r with c :: _ => q c = false | [] => True end.
Proof. intro H. apply span_spec in H. exact H. Qed.
Lemma move_at {E} m r o : @move_input E {| cl_input := m ++ r; cl_offset := o |} (utf8_len m) = Ok {| cl_input := r; cl_offset := o + utf8_len m |}.
Proof. unfold move_input. cbn [cl_input cl_offset]. rewrite byte_split_app. reflexivity. Qed.
Lemma local_take_while k q : (forall c, q c = true -> is_ws c = false) -> local (fun f l => take_while f l k q).
Proof.
  intros Hq f l x l' H. unfold take_while in H. destruct (take_ws_split l) as [w [s [Hws [E [Hh Ho]]]]]. rewrite Ho in H. cbn [cl_input] in H.
  destruct (span q s) as [m r] eqn:S. apply span_facts in S as [S [Hm Hr]].
  destruct m as [|c m]; [destruct (unknown_not_ok _ _ _ _ H)|]. rewrite S in H.
  rewrite (move_at (c :: m) r) in H. cbn [bind] in H. injection H as <- <-. cbn [cl_input cl_offset].
  exists (w ++ c :: m). split; [rewrite E, S, app_assoc; reflexivity|]. intros Ha f2 r2 Hs. unfold take_while. rewrite <- app_assoc.
  rewrite take_ws_at; [|eauto|]. 2: { cbn. apply Hq. cbn [forallb] in Hm. apply andb_prop in Hm as [Hm _]. exact Hm. }
  cbn [cl_input]. rewrite (span_stop q r r2 Hs Hr (c :: m) Hm). rewrite (move_at (c :: m) r2). reflexivity.
Qed.
Lemma color_loop_local u : forall s n h m, color_loop u s n h = Some m -> exists r, s = m ++ r /\
  forall r2, sim r r2 -> color_loop u (m ++ r2) n h = Some m.
Proof.
  induction s as [|c s IH]; intros n h m H; cbn [color_loop] in H.
  - injection H as <-. exists []. split; [reflexivity|]. intros r2 Hs. destruct (sim_head _ _ Hs) as [c [a' [b' [X _]]]]. discriminate X.
  - destruct ((c =? c_hash)%N && negb h) eqn:E1.
    + destruct (color_loop u s n true) as [m'|] eqn:E2; [|discriminate H]. injection H as <-. destruct (IH _ _ _ E2) as [r [-> L]].
      exists r. split; [reflexivity|]. intros r2 Hs. cbn [app color_loop]. rewrite E1, (L r2 Hs). reflexivity.
    + destruct (is_alnum u c) eqn:E3.
      * destruct (6 <? n) eqn:E4; [discriminate H|]. destruct (color_loop u s (S n) h) as [m'|] eqn:E2; [|discriminate H]. injection H as <-.
        destruct (IH _ _ _ E2) as [r [-> L]]. exists r. split; [reflexivity|]. intros r2 Hs. cbn [app color_loop]. rewrite E1, E3, E4, (L r2 Hs). reflexivity.
      * destruct ((n =? 3) || (n =? 6)) eqn:E4; [|discriminate H]. injection H as <-. exists (c :: s). split; [reflexivity|].
        intros r2 Hs. destruct (sim_head _ _ Hs) as [c' [a' [b' [X ->]]]]. injection X as <- <-. cbn [app color_loop]. rewrite E1, E3, E4. reflexivity.
Qed.
Lemma sim_ws m r r2 : sim r r2 -> head_not_ws (m ++ r) -> head_not_ws (m ++ r2).
Proof. intros S. destruct (sim_head _ _ S) as [c [a [b [-> ->]]]]. destruct m; exact (fun H => H). Qed.
Lemma local_color co : local (take_color co).
Proof.
  intros f l x l' H. unfold take_color in H. destruct (take_ws_split l) as [w [s [Hws [E [Hh Ho]]]]]. rewrite Ho in H. cbn [cl_input] in H.
  destruct (color_loop (co_unicode co) s 0 false) as [m|] eqn:C; [|destruct (unknown_not_ok _ _ _ _ H)].
  destruct (color_loop_local _ _ _ _ _ C) as [r [Es L]]. rewrite Es in H. rewrite move_at in H. cbn [bind] in H. injection H as <- <-. cbn [cl_input cl_offset].
  exists (w ++ m). split; [rewrite E, Es, app_assoc; reflexivity|]. intros Ha f2 r2 Hs. unfold take_color. rewrite <- app_assoc.
  rewrite take_ws_at; [|eauto|apply (sim_ws m r r2 Hs); rewrite <- Es; exact Hh]. cbn [cl_input]. rewrite (L r2 Hs), move_at. reflexivity.
Qed.
Lemma quoted_local : forall s e m n, quoted_loop s e = Some (m, n) -> exists b r, s = b ++ r /\ length b = n /\ existsb (fun x => (x =? c_squote)%N) b = true
  /\ forall r2, quoted_loop (b ++ r2) e = Some (m, n).
Proof.
  induction s as [|c s IH]; intros e m n H; cbn [quoted_loop] in H; [discriminate H|].
  assert (G : forall e' m' n', quoted_loop s e' = Some (m', n') -> exists b r, c :: s = (c :: b) ++ r /\ length (c :: b) = S n'
    /\ existsb (fun x => (x =? c_squote)%N) (c :: b) = true /\ forall r2, quoted_loop (b ++ r2) e' = Some (m', n')).
  { intros e' m' n' Q. destruct (IH e' m' n' Q) as [b [r [-> [Hl [He L]]]]]. exists b, r. split; [reflexivity|]. split; [cbn; lia|].
    split; [cbn; rewrite He; apply orb_true_r|exact L]. }
  destruct e.
  - destruct (quoted_loop s false) as [[m' n']|] eqn:Q; [|discriminate H]. injection H as <- <-. destruct (G _ _ _ Q) as [b [r [E1 [E2 [E3 L]]]]].
    exists (c :: b), r. split; [exact E1|]. split; [exact E2|]. split; [exact E3|]. intro r2. cbn [app quoted_loop]. rewrite L. reflexivity.
  - destruct (c =? c_backslash)%N eqn:B.
    + destruct (quoted_loop s true) as [[m' n']|] eqn:Q; [|discriminate H]. injection H as <- <-. destruct (G _ _ _ Q) as [b [r [E1 [E2 [E3 L]]]]].
      exists (c :: b), r. split; [exact E1|]. split; [exact E2|]. split; [exact E3|]. intro r2. cbn [app quoted_loop]. rewrite B, L. reflexivity.
    + destruct (c =? c_squote)%N eqn:SQ.
      * injection H as <- <-. exists [c], s. split; [reflexivity|]. split; [reflexivity|]. split; [cbn; rewrite SQ; reflexivity|].
        intro r2. cbn [app quoted_loop]. rewrite B, SQ. reflexivity.
      * destruct (quoted_loop s false) as [[m' n']|] eqn:Q; [|discriminate H]. injection H as <- <-. destruct (G _ _ _ Q) as [b [r [E1 [E2 [E3 L]]]]].
        exists (c :: b), r. split; [exact E1|]. split; [exact E2|]. split; [exact E3|]. intro r2. cbn [app quoted_loop]. rewrite B, SQ, L. reflexivity.
Qed.
Lemma move_split {E} l n l' : @move_input E l n = Ok l' -> exists p, cl_input l = p ++ cl_input l' /\ utf8_len p = n /\ cl_offset l' = cl_offset l + n.
Proof.
  unfold move_input. destruct (byte_split n (cl_input l)) as [[p r]|] eqn:B; [|discriminate]. intro H. injection H as <-. apply byte_split_spec in B as [B U].
  exists p. cbn. split; [exact B|]. split; [exact U|reflexivity].
Qed.
Lemma app_same_length {A} (a b c d : list A) : a ++ b = c ++ d -> length a = length c -> a = c /\ b = d.
Proof.
  revert c. induction a as [|x a IH]; intros [|y c] H L; cbn in *; try discriminate L; [auto|]. injection H as -> H. injection L as L.
  destruct (IH c H L) as [-> ->]. auto.
Qed.
(** the quoted text, with the quotes, ends in a quote *)
Lemma local_single_strong f l x l' : take_single_quoted_string f l = Ok (x, l') -> exists w p, cl_input l = (w ++ p) ++ cl_input l' /\ spaces w /\
  (ascii (w ++ p) -> (exists b, p = c_squote :: b /\ existsb (fun x => (x =? c_squote)%N) b = true) /\
  forall f2 r2, take_single_quoted_string f2 {| cl_input := (w ++ p) ++ r2; cl_offset := cl_offset l |} = Ok (x, {| cl_input := r2; cl_offset := cl_offset l' |})).
Proof.
  intros H. unfold take_single_quoted_string in H. destruct (take_ws_split l) as [w [s [Hws [E [Hh Ho]]]]]. rewrite Ho in H. cbn [cl_input] in H.
  destruct s as [|c s]; [destruct (unknown_not_ok _ _ _ _ H)|]. destruct (c =? c_squote)%N eqn:Q; [|destruct (unknown_not_ok _ _ _ _ H)].
  destruct (quoted_loop s false) as [[m n]|] eqn:QL; [|destruct (unknown_not_ok _ _ _ _ H)].
  destruct (move_input _ (S n)) as [l1| | |] eqn:M; try discriminate H. cbn [bind] in H. injection H as <- <-.
  destruct (move_split _ _ _ M) as [p [Ep [Up Uo]]]. cbn [cl_input cl_offset] in Ep, Uo. destruct (quoted_local _ _ _ _ QL) as [b [r [Es [Lb [Ex L]]]]].
  exists w, p. split; [rewrite E, Ep, app_assoc; reflexivity|]. split; [exact Hws|]. intros Ha.
  assert (Ha2 := Ha). apply ascii_app in Ha2 as [_ Ap]. rewrite (utf8_len_ascii p Ap) in Up.
  assert (X : p = c :: b /\ cl_input l1 = r).
  { apply app_same_length; [rewrite <- Ep, Es; reflexivity|cbn; lia]. }
  destruct X as [-> Er]. apply N.eqb_eq in Q. split; [exists b; split; [f_equal; exact Q|exact Ex]|]. intros f2 r2. unfold take_single_quoted_string. rewrite <- app_assoc.
  rewrite take_ws_at; [|eauto|exact Hh]. cbn [cl_input app]. rewrite (proj2 (N.eqb_eq _ _) Q). cbn [app] in L. rewrite (L r2).
  assert (MV : @move_input cell_error {| cl_input := c :: b ++ r2; cl_offset := cl_offset l + utf8_len w |} (S n) = Ok {| cl_input := r2; cl_offset := cl_offset l + utf8_len w + S n |}).
  { replace (S n) with (utf8_len (c :: b)) by (rewrite utf8_len_ascii by exact Ap; cbn; lia). exact (move_at (c :: b) r2 _). }
  rewrite MV. cbn [bind]. rewrite Uo. reflexivity.
Qed.
Lemma local_single : local take_single_quoted_string.
Proof.
  intros f l x l' H. destruct (local_single_strong f l x l' H) as [w [p [E [_ L]]]]. exists (w ++ p). split; [exact E|]. intros Ha f2 r2 _. apply L. exact Ha.
Qed.
Lemma take_ws_twice_input l : cl_input (take_whitespace (take_whitespace l)) = cl_input (take_whitespace l).
Proof. rewrite take_ws_idem. reflexivity. Qed.
Lemma local_string co : local (take_string co).
Proof.
  assert (Hq : forall c, is_alnum (co_unicode co) c = true -> is_ws c = false) by apply alnum_not_ws.
  assert (T : forall f l, take_string co f l = match cl_input (take_whitespace l) with
    | c :: _ => if (c =? c_squote)%N then take_single_quoted_string f l else take_while f l KString (is_alnum (co_unicode co))
    | [] => take_while f l KString (is_alnum (co_unicode co)) end).
  { intros f l. unfold take_string. destruct (cl_input (take_whitespace l)) as [|c s]; [unfold take_while; rewrite take_ws_idem; reflexivity|].
    destruct (c =? c_squote)%N; [unfold take_single_quoted_string|unfold take_while]; rewrite take_ws_idem; reflexivity. }
  intros f l x l' H. rewrite T in H.
  assert (HD : forall m s r2, cl_input l = m ++ s -> sim s r2 -> forall o, match cl_input (take_whitespace {| cl_input := m ++ r2; cl_offset := o |}), cl_input (take_whitespace l) with
    | c :: _, d :: _ => c = d | _, _ => False end).
  { intros m s r2 E Hs o. unfold take_whitespace. cbn [cl_input]. rewrite E. clear -Hs. induction m as [|c m IH].
    - cbn [app]. destruct Hs as [p [x [y [-> ->]]]]. induction p as [|c p IH]; [reflexivity|]. cbn [app trim_start]. destruct (is_ws c); [exact IH|reflexivity].
    - cbn [app trim_start]. destruct (is_ws c); [exact IH|reflexivity]. }
  destruct (cl_input (take_whitespace l)) as [|c s] eqn:E.
  - exfalso. unfold take_while in H. rewrite E in H. cbn [span] in H. destruct (unknown_not_ok _ _ _ _ H).
  - destruct (c =? c_squote)%N eqn:Q.
    + destruct (local_single f l x l' H) as [m [Em L]]. exists m. split; [exact Em|]. intros Ha f2 r2 Hs. rewrite T.
      specialize (HD m _ r2 Em Hs (cl_offset l)). destruct (cl_input (take_whitespace {| cl_input := m ++ r2; cl_offset := cl_offset l |})) as [|d q]; [destruct HD|].
      subst d. rewrite Q. auto.
    + destruct (local_take_while KString _ Hq f l x l' H) as [m [Em L]]. exists m. split; [exact Em|]. intros Ha f2 r2 Hs. rewrite T.
      specialize (HD m _ r2 Em Hs (cl_offset l)). destruct (cl_input (take_whitespace {| cl_input := m ++ r2; cl_offset := cl_offset l |})) as [|d q]; [destruct HD|].
      subst d. rewrite Q. auto.
Qed.

(** ** Patterns *)
Definition inner (c : char) : bool := negb (c =? c_rbracket)%N && negb (is_ws c).
Definition tame (mt : matcher) : Prop := forall s,
  match mt s with
  | Some (a, r) => s = a ++ r /\ forallb inner a = true /\ forall r2, sim r r2 -> mt (a ++ r2) = Some (a, r2)
  | None => forall s2, sim s s2 -> mt s2 = None
  end.
Lemma sim_split a r s2 : forallb inner a = true -> sim (a ++ r) s2 -> exists r2, s2 = a ++ r2 /\ sim r r2.
Proof.
  revert s2. induction a as [|c a IH]; intros s2 H S; [exists s2; auto|]. cbn [forallb] in H. apply andb_prop in H as [Hc H].
  destruct (sim_head _ _ S) as [d [x [y [E ->]]]]. injection E as <- <-. apply sim_tail in S.
  - destruct (IH y H S) as [r2 [-> S2]]. exists r2. split; [reflexivity|exact S2].
  - unfold inner in Hc. apply andb_prop in Hc as [Hc _]. intros ->. discriminate Hc.
Qed.
Lemma tame_plus q : (forall c, q c = true -> inner c = true) -> tame (m_plus q).
Proof.
  intros Hq s. unfold m_plus. destruct (span q s) as [[|c a] r] eqn:E.
  - apply span_facts in E as [E [_ Hr]]. cbn [app] in E. subst s. intros s2 S. rewrite (span_stop q r s2 S Hr [] eq_refl : span q s2 = ([], s2)). reflexivity.
  - apply span_facts in E as [E [Ha Hr]]. split; [exact E|]. split.
    + rewrite forallb_forall in *. auto.
    + intros r2 S. rewrite (span_stop q r r2 S Hr (c :: a) Ha). reflexivity.
Qed.
Lemma tame_lit c : inner c = true -> tame (m_lit [c]).
Proof.
  intros Hc s. unfold m_lit. destruct s as [|d s]; cbn [strip_prefix].
  - intros s2 S. destruct (sim_head _ _ S) as [? [? [? [X _]]]]. discriminate X.
  - destruct (N.eqb_spec c d) as [<-|Hn].
    + split; [reflexivity|]. split; [cbn; rewrite Hc; reflexivity|]. intros r2 _. cbn [app]. rewrite N.eqb_refl. reflexivity.
    + intros s2 S. destruct (sim_head _ _ S) as [? [? [? [X ->]]]]. injection X as <- <-. rewrite (proj2 (N.eqb_neq _ _) Hn). reflexivity.
Qed.
Lemma tame_seq a b : tame a -> tame b -> tame (m_seq a b).
Proof.
  intros Ha Hb s. unfold m_seq. pose proof (Ha s) as A. destruct (a s) as [[x r]|] eqn:Ea.
  - destruct A as [-> [Ix Lx]]. pose proof (Hb r) as B. destruct (b r) as [[y r1]|] eqn:Eb.
    + destruct B as [-> [Iy Ly]]. split; [rewrite app_assoc; reflexivity|]. split; [rewrite forallb_app, Ix; exact Iy|].
      intros r2 S. rewrite <- app_assoc, (Lx (y ++ r2)) by (apply sim_app; exact S). rewrite (Ly r2 S). reflexivity.
    + intros s2 S. destruct (sim_split x r s2 Ix S) as [r2 [-> S2]]. rewrite (Lx r2 S2), (B r2 S2). reflexivity.
  - intros s2 S. rewrite (A s2 S). reflexivity.
Qed.
Lemma tame_alt a b : tame a -> tame b -> tame (fun s => match a s with Some x => Some x | None => b s end).
Proof.
  intros Ha Hb s. pose proof (Ha s) as A. destruct (a s) as [[x r]|] eqn:Ea.
  - destruct A as [-> [Ix Lx]]. split; [reflexivity|]. split; [exact Ix|]. intros r2 S. rewrite (Lx r2 S). reflexivity.
  - pose proof (Hb s) as B. destruct (b s) as [[y r]|] eqn:Eb.
    + destruct B as [-> [Iy Ly]]. split; [reflexivity|]. split; [exact Iy|]. intros r2 S. rewrite (A (y ++ r2)) by (apply sim_app; exact S). apply Ly. exact S.
    + intros s2 S. rewrite (A s2 S). apply B. exact S.
Qed.
Lemma digit_inner u c : is_digit u c = true -> inner c = true.
Proof.
  unfold is_digit, inner. destruct (is_ascii c) eqn:A.
  - unfold is_ascii_digit, is_ws, c_rbracket. lia.
  - intro H. apply andb_prop in H as [H _]. rewrite H. unfold is_ascii, c_rbracket in *. lia.
Qed.
Lemma word_inner u c : is_word u c = true -> inner c = true.
Proof.
  unfold is_word, inner. destruct (is_ascii c) eqn:A.
  - unfold is_ascii_word, is_ascii_alnum, is_ascii_alpha, is_ascii_upper, is_ascii_lower, is_ascii_digit, is_ws, c_rbracket. lia.
  - intro H. apply andb_prop in H as [H _]. rewrite H. unfold is_ascii, c_rbracket in *. lia.
Qed.
Lemma tame_digits u n : tame (m_digits u n).
Proof.
  induction n as [|n IH]; intro s; cbn [m_digits].
  - split; [reflexivity|]. split; [reflexivity|]. intros; reflexivity.
  - destruct s as [|c s]; [intros s2 S; destruct (sim_head _ _ S) as [? [? [? [X _]]]]; discriminate X|].
    destruct (is_digit u c) eqn:D.
    + specialize (IH s). destruct (m_digits u n s) as [[a r]|].
      * destruct IH as [-> [I L]]. split; [reflexivity|]. split; [cbn; rewrite (digit_inner u c D); exact I|]. intros r2 S. cbn [app]. rewrite D, (L r2 S). reflexivity.
      * intros s2 S. destruct (sim_head _ _ S) as [? [? [b [X ->]]]]. injection X as <- <-. rewrite D. rewrite IH; [reflexivity|].
        apply (sim_tail c); [exact S|]. apply digit_inner in D. unfold inner in D. intros ->. discriminate D.
    + intros s2 S. destruct (sim_head _ _ S) as [? [? [b [X ->]]]]. injection X as <- <-. rewrite D. reflexivity.
Qed.
Lemma up_to_local u : forall hi s a r, m_digits_up_to u hi s = (a, r) -> s = a ++ r /\ forallb inner a = true /\ forall r2, sim r r2 -> m_digits_up_to u hi (a ++ r2) = (a, r2).
Proof.
  induction hi as [|hi IH]; intros s a r H; cbn [m_digits_up_to] in H; [injection H as <- <-; split; [reflexivity|split; reflexivity]|].
  destruct s as [|c s]; [injection H as <- <-; split; [reflexivity|]; split; [reflexivity|]; intros r2 S; destruct (sim_head _ _ S) as [? [? [? [X _]]]]; discriminate X|].
  destruct (is_digit u c) eqn:D.
  - destruct (m_digits_up_to u hi s) as [a' r'] eqn:E. injection H as <- <-. destruct (IH s a' r' E) as [-> [I L]].
    split; [reflexivity|]. split; [cbn; rewrite (digit_inner u c D); exact I|]. intros r2 S. cbn [app m_digits_up_to]. rewrite D, (L r2 S). reflexivity.
  - injection H as <- <-. split; [reflexivity|]. split; [reflexivity|]. intros r2 S. destruct (sim_head _ _ S) as [? [? [b [X ->]]]]. injection X as <- <-.
    cbn [app m_digits_up_to]. rewrite D. reflexivity.
Qed.
Lemma tame_range u lo hi : tame (m_range u lo hi).
Proof.
  intro s. unfold m_range. destruct (m_digits_up_to u hi s) as [a r] eqn:E. destruct (up_to_local u hi s a r E) as [-> [I L]].
  destruct (length a <? lo) eqn:T.
  - intros s2 S. destruct (sim_split a r s2 I S) as [r2 [-> S2]]. rewrite (L r2 S2), T. reflexivity.
  - split; [reflexivity|]. split; [exact I|]. intros r2 S. rewrite (L r2 S), T. reflexivity.
Qed.
Lemma tame_date u : tame (m_date u).
Proof.
  apply (tame_alt (m_iso_date u) (m_us_date u)).
  - unfold m_iso_date. repeat apply tame_seq; try apply tame_digits; apply tame_lit; reflexivity.
  - unfold m_us_date. repeat apply tame_seq; try apply tame_range; apply tame_lit; reflexivity.
Qed.
Lemma tame_identifier u : tame (m_identifier u).
Proof. apply tame_plus, word_inner. Qed.
Definition m_unsigned (u : unicode) : matcher := fun s =>
  match span (is_digit u) s with
  | ([], _) => None
  | (a, r) => match m_seq (m_lit [c_dot]) (m_plus (is_digit u)) r with Some (b, r2) => Some (a ++ b, r2) | None => Some (a, r) end
  end.
Lemma tame_unsigned u : tame (m_unsigned u).
Proof.
  intro s. unfold m_unsigned. pose proof (tame_plus (is_digit u) (digit_inner u) s) as P. unfold m_plus at 1 in P.
  set (fr := m_seq (m_lit [c_dot]) (m_plus (is_digit u))). assert (F : tame fr) by (apply tame_seq; [apply tame_lit; reflexivity|apply tame_plus, digit_inner]).
  assert (PM : forall s a r, m_plus (is_digit u) s = Some (a, r) -> a <> [] /\ span (is_digit u) s = (a, r)).
  { intros s0 a r H. unfold m_plus in H. destruct (span (is_digit u) s0) as [[|c x] y]; [discriminate H|]. injection H as <- <-. split; [discriminate|reflexivity]. }
  destruct (span (is_digit u) s) as [[|c a] r].
  - intros s2 S. specialize (P s2 S). unfold m_plus in P. destruct (span (is_digit u) s2) as [[|d x] y]; [reflexivity|discriminate P].
  - destruct P as [-> [I L]]. specialize (F r) as Fr. destruct (fr r) as [[b r1]|].
    + destruct Fr as [-> [Ib Lb]]. split; [rewrite app_assoc; reflexivity|]. split; [rewrite forallb_app, I; exact Ib|]. intros r2 S.
      rewrite <- app_assoc. destruct (PM _ _ _ (L (b ++ r2) (sim_app b _ _ S))) as [_ ->]. rewrite (Lb r2 S). reflexivity.
    + split; [reflexivity|]. split; [exact I|]. intros r2 S. destruct (PM _ _ _ (L r2 S)) as [_ ->]. rewrite (Fr r2 S). reflexivity.
Qed.
Lemma number_as u s : m_number u s = match m_seq (m_lit [c_minus]) (m_unsigned u) s with Some x => Some x | None => m_unsigned u s end.
Proof.
  unfold m_number, m_seq, m_lit. destruct s as [|c s]; [reflexivity|]. cbn [strip_prefix]. rewrite (N.eqb_sym c_minus c). destruct (N.eqb_spec c c_minus) as [->|Hn].
  - unfold m_unsigned. assert (Z : span (is_digit u) (c_minus :: s) = ([], c_minus :: s)).
    { cbn [span]. replace (is_digit u c_minus) with false by reflexivity. reflexivity. }
    rewrite Z. destruct (span (is_digit u) s) as [[|d a] r]; [reflexivity|]. unfold m_seq, m_lit. cbn [app].
    destruct r as [|e y]; [reflexivity|]. cbn [strip_prefix]. destruct (c_dot =? e)%N; [|reflexivity]. destruct (m_plus (is_digit u) y) as [[x' y']|]; reflexivity.
  - unfold m_unsigned. destruct (span (is_digit u) (c :: s)) as [[|d a] r]; [reflexivity|]. unfold m_seq, m_lit. cbn [app].
    destruct r as [|e y]; [reflexivity|]. cbn [strip_prefix]. destruct (c_dot =? e)%N; [|reflexivity]. destruct (m_plus (is_digit u) y) as [[x' y']|]; reflexivity.
Qed.
Lemma tame_number u : tame (m_number u).
Proof.
  pose (mt := fun s => match m_seq (m_lit [c_minus]) (m_unsigned u) s with Some x => Some x | None => m_unsigned u s end).
  assert (T : tame mt) by (apply tame_alt; [apply tame_seq; [apply tame_lit; reflexivity|apply tame_unsigned]|apply tame_unsigned]).
  assert (X : forall s, m_number u s = mt s) by (intro s; apply number_as).
  intro s. specialize (T s). rewrite X. destruct (mt s) as [[a r]|].
  - destruct T as [E1 [I L]]. split; [exact E1|]. split; [exact I|]. intros r2 S. rewrite X. apply L. exact S.
  - intros s2 S. rewrite X. apply T. exact S.
Qed.

Lemma trim_inner ws a : spaces ws -> forallb inner a = true -> trim (ws ++ a) = a.
Proof.
  intros Hw Ha. rewrite trim_app_ws by exact Hw. unfold trim, trim_end.
  assert (N : forall s, forallb inner s = true -> trim_start s = s).
  { intros [|c s] H; [reflexivity|]. cbn [forallb] in H. apply andb_prop in H as [H _]. unfold inner in H. apply andb_prop in H as [_ H]. apply negb_true_iff in H.
    cbn. rewrite H. reflexivity. }
  rewrite (N a Ha), (N (rev a)), rev_involutive; [reflexivity|]. rewrite forallb_forall in *. intros c Hc. apply Ha. apply in_rev. exact Hc.
Qed.
Lemma blank_spaces ws : forallb is_blank ws = true -> spaces ws.
Proof. unfold spaces. rewrite !forallb_forall. intros H c Hc. apply H in Hc. unfold is_blank in Hc. apply andb_prop in Hc as [Hc _]. apply andb_prop in Hc as [Hc _]. exact Hc. Qed.
Lemma regex_some l k mt t l' : tame mt -> maybe_take_regex l k mt = Ok (Some (t, l')) ->
  exists m, cl_input l = m ++ cl_input l' /\ (ascii m -> forall r2, sim (cl_input l') r2 ->
    maybe_take_regex {| cl_input := m ++ r2; cl_offset := cl_offset l |} k mt = Ok (Some (t, {| cl_input := r2; cl_offset := cl_offset l' |}))).
Proof.
  intros T H. unfold maybe_take_regex in H. destruct (span is_blank (cl_input l)) as [ws body] eqn:Sp. apply span_facts in Sp as [Ei [Hb Hh]].
  pose proof (T body) as TB. destruct (mt body) as [[a r]|]; [|discriminate H]. destruct TB as [-> [I L]].
  rewrite (trim_inner ws a (blank_spaces ws Hb) I) in H.
  destruct (move_input l (length ws)) as [l1| | |] eqn:M1; try discriminate H. cbn [bind] in H.
  destruct (move_input l1 (utf8_len a)) as [l2| | |] eqn:M2; try discriminate H. cbn [bind] in H. injection H as <- <-.
  destruct (move_split _ _ _ M1) as [p1 [E1 [U1 O1]]]. destruct (move_split _ _ _ M2) as [p2 [E2 [U2 O2]]].
  exists (p1 ++ p2). split; [rewrite E1, E2, app_assoc; reflexivity|]. intros Ha r2 S. apply ascii_app in Ha as [A1 A2].
  rewrite (utf8_len_ascii p1 A1) in U1. rewrite Ei in E1. destruct (app_same_length ws (a ++ r) p1 (cl_input l1) E1 (eq_sym U1)) as [-> E3].
  assert (X : p2 = a /\ cl_input l2 = r).
  { pose proof (byte_split_app a r) as B1. rewrite E3, E2 in B1. rewrite <- U2 in B1. rewrite byte_split_app in B1. injection B1 as -> ->. auto. }
  destruct X as [-> Er]. unfold maybe_take_regex. rewrite <- app_assoc.
  assert (Sp2 : span is_blank (p1 ++ a ++ r2) = (p1, a ++ r2)).
  { rewrite Er in S. exact (span_stop is_blank (a ++ r) (a ++ r2) (sim_app a _ _ S) Hh p1 Hb). }
  cbn [cl_input]. rewrite Sp2. rewrite Er in S. rewrite (L r2 S), (trim_inner p1 a (blank_spaces p1 Hb) I).
  assert (V : @move_input cell_error {| cl_input := p1 ++ a ++ r2; cl_offset := cl_offset l |} (length p1) = Ok {| cl_input := a ++ r2; cl_offset := cl_offset l1 |}).
  { rewrite O1. rewrite <- (utf8_len_ascii p1 A1). apply move_at. }
  rewrite V. cbn [bind]. rewrite move_at. cbn [bind]. rewrite O2. reflexivity.
Qed.
Lemma regex_none l k mt s2 o : tame mt -> maybe_take_regex l k mt = Ok None -> sim (cl_input l) s2 -> maybe_take_regex {| cl_input := s2; cl_offset := o |} k mt = Ok None.
Proof.
  intros T H S. unfold maybe_take_regex in *. destruct (span is_blank (cl_input l)) as [ws body] eqn:Sp. apply span_facts in Sp as [Ei [Hb Hh]].
  pose proof (T body) as TB. destruct (mt body) as [[a r]|].
  - destruct (move_input l _) as [l1| | |]; try discriminate H. cbn [bind] in H. destruct (move_input l1 _) as [l2| | |]; discriminate H.
  - rewrite Ei in S. assert (I : forallb (fun c => negb (c =? c_rbracket)%N) ws = true).
    { rewrite forallb_forall in *. intros c Hc. apply Hb in Hc. unfold is_blank, is_ws, c_nl, c_cr, c_rbracket in *. lia. }
    assert (X : exists b2, s2 = ws ++ b2 /\ sim body b2).
    { clear -I S. revert s2 S. induction ws as [|c ws IH]; intros s2 S; [exists s2; auto|]. cbn [forallb] in I. apply andb_prop in I as [Ic I].
      destruct (sim_head _ _ S) as [d [x [y [E ->]]]]. injection E as <- <-. apply sim_tail in S; [|intros ->; discriminate Ic].
      destruct (IH I y S) as [b2 [-> Sb]]. exists b2. auto. }
    destruct X as [b2 [-> Sb]]. cbn [cl_input]. rewrite (span_stop is_blank body b2 Sb Hh ws Hb). rewrite (TB b2 Sb). reflexivity.
Qed.

(** ** Items of a list *)
Lemma quoted_blank w : forall x ws body, spaces w -> span is_blank (w ++ c_squote :: x) = (ws, body) -> has_quoted body = true -> ws = w.
Proof.
  induction w as [|c w IH]; intros x ws body Hw S Q; cbn [app span] in S.
  - injection S as <- _. reflexivity.
  - unfold spaces in Hw. cbn [forallb] in Hw. apply andb_prop in Hw as [Hc Hw]. destruct (is_blank c) eqn:B.
    + destruct (span is_blank (w ++ c_squote :: x)) as [a b] eqn:S2. injection S as <- <-. f_equal. eapply IH; eauto.
    + injection S as <- <-. cbn [has_quoted] in Q. apply andb_prop in Q as [Q _]. apply N.eqb_eq in Q. subst c. discriminate Hc.
Qed.
Lemma item_local co f l t l' : in_list_token co f l = Ok (Some (t, l')) -> exists m, cl_input l = m ++ cl_input l' /\ m <> [] /\
  (ascii m -> forall f2 r2, sim (cl_input l') r2 ->
    in_list_token co f2 {| cl_input := m ++ r2; cl_offset := cl_offset l |} = Ok (Some (t, {| cl_input := r2; cl_offset := cl_offset l' |}))).
Proof.
  intro H. pose proof (in_list_token_eats co f l) as Eat. rewrite H in Eat. unfold in_list_token in H.
  assert (NE : forall m, cl_input l = m ++ cl_input l' -> m <> []).
  { intros m E1 ->. unfold left in Eat. rewrite E1 in Eat. cbn in Eat. lia. }
  destruct (maybe_take_regex l KDate (m_date (co_unicode co))) as [[[t1 l1]|]| | |] eqn:D; try discriminate H; cbn [bind] in H.
  { injection H as -> ->. destruct (regex_some _ _ _ _ _ (tame_date _) D) as [m [E1 L]]. exists m. split; [exact E1|]. split; [apply NE; exact E1|].
    intros Ha f2 r2 S. unfold in_list_token. rewrite (L Ha r2 S). reflexivity. }
  destruct (maybe_take_regex l KNumber (m_number (co_unicode co))) as [[[t1 l1]|]| | |] eqn:Nm; try discriminate H; cbn [bind] in H.
  { injection H as -> ->. destruct (regex_some _ _ _ _ _ (tame_number _) Nm) as [m [E1 L]]. exists m. split; [exact E1|]. split; [apply NE; exact E1|].
    intros Ha f2 r2 S. unfold in_list_token. rewrite (regex_none l _ _ (m ++ r2) _ (tame_date _) D) by (rewrite E1; apply sim_app; exact S).
    cbn [bind]. rewrite (L Ha r2 S). reflexivity. }
  destruct (maybe_take_single_quoted_string f l) as [[[t1 l1]|]| | |] eqn:Q; try discriminate H; cbn [bind] in H.
  { injection H as -> ->. unfold maybe_take_single_quoted_string in Q. destruct (span is_blank (cl_input l)) as [ws body] eqn:Sp.
    destruct (has_quoted body) eqn:HQ; [|discriminate Q]. destruct (take_single_quoted_string f l) as [[t2 l2]| | |] eqn:TS; try discriminate Q. injection Q as -> ->.
    destruct (local_single_strong _ _ _ _ TS) as [w [p [E1 [Hw L]]]]. exists (w ++ p). split; [exact E1|]. split; [apply NE; exact E1|].
    intros Ha f2 r2 S. destruct (L Ha) as [[b [-> Hb]] L2]. unfold in_list_token.
    assert (S2 : sim (cl_input l) ((w ++ c_squote :: b) ++ r2)) by (rewrite E1; apply sim_app; exact S).
    rewrite (regex_none l _ _ _ _ (tame_date _) D S2). cbn [bind]. rewrite (regex_none l _ _ _ _ (tame_number _) Nm S2). cbn [bind].
    unfold maybe_take_single_quoted_string. cbn [cl_input]. rewrite E1, <- app_assoc in Sp. cbn [app] in Sp.
    pose proof (quoted_blank _ _ _ _ Hw Sp HQ) as W. subst ws.
    assert (BL : forallb is_blank w = true) by (apply span_facts in Sp; apply Sp).
    assert (Sp2 : span is_blank ((w ++ c_squote :: b) ++ r2) = (w, c_squote :: b ++ r2)).
    { rewrite <- app_assoc. cbn [app]. clear -BL. induction w as [|c w IH]; [reflexivity|]. cbn [forallb] in BL. apply andb_prop in BL as [Bc BL].
      cbn [app span]. rewrite Bc. rewrite (IH BL). reflexivity. }
    rewrite Sp2. assert (HQ2 : has_quoted (c_squote :: b ++ r2) = true).
    { cbn [has_quoted]. rewrite existsb_app, Hb. reflexivity. }
    rewrite HQ2, (L2 f2 r2). reflexivity. }
  destruct (regex_some _ _ _ _ _ (tame_identifier _) H) as [m [E1 L]]. exists m. split; [exact E1|]. split; [apply NE; exact E1|].
  intros Ha f2 r2 S. unfold in_list_token. assert (S2 : sim (cl_input l) (m ++ r2)) by (rewrite E1; apply sim_app; exact S).
  rewrite (regex_none l _ _ _ _ (tame_date _) D S2). cbn [bind]. rewrite (regex_none l _ _ _ _ (tame_number _) Nm S2). cbn [bind].
  specialize (L Ha r2 S). assert (Q2 : maybe_take_single_quoted_string f2 {| cl_input := m ++ r2; cl_offset := cl_offset l |} = Ok None).
  { clear -L. unfold maybe_take_single_quoted_string. unfold maybe_take_regex in L. cbn [cl_input] in *. destruct (span is_blank (m ++ r2)) as [ws body].
    assert (HQ : has_quoted body = false).
    { destruct body as [|c body]; [reflexivity|]. unfold m_identifier, m_plus in L. cbn [span has_quoted] in *. destruct (is_word (co_unicode co) c) eqn:W; [|discriminate L].
      destruct (N.eqb_spec c c_squote) as [->|]; [|reflexivity]. discriminate W. }
    rewrite HQ. reflexivity. }
  rewrite Q2. cbn [bind]. exact L.
Qed.
Lemma peek_local l r2 o : sim (cl_input l) r2 -> peek_close_parenthesis {| cl_input := r2; cl_offset := o |} = peek_close_parenthesis l.
Proof.
  unfold peek_close_parenthesis. cbn [cl_input]. generalize (cl_input l) as a. intros a [p [x [y [-> ->]]]].
  induction p as [|c p IH]; [reflexivity|]. cbn [app span]. destruct (is_blank c); [|unfold starts_with; cbn [lit list_ascii_of_string map strip_prefix]; destruct (_ =? c)%N; reflexivity].
  destruct (span is_blank (p ++ lit "]]" ++ x)) as [? ?]. destruct (span is_blank (p ++ lit "]]" ++ y)) as [? ?]. exact IH.
Qed.
Lemma steady_bind {A B} (c : field -> outcome cell_error A) (k : A -> field -> outcome cell_error B) : steady c -> (forall a, steady (k a)) ->
  steady (fun f => do a <- c f; k a f).
Proof.
  intros Hc Hk f f2 v H. destruct (c f) as [a| | |] eqn:E1; try discriminate H. rewrite (Hc f f2 a E1). cbn [bind] in *. exact (Hk a f f2 v H).
Qed.
Lemma steady_ret {A} (a : A) : steady (fun _ => Ok a).
Proof. intros f f2 v H. exact H. Qed.
Lemma steady_date co t : steady (fun f => into_date co f t).
Proof. apply steady_or_error. Qed.
Lemma steady_number t : steady (fun f => into_number f t).
Proof. apply steady_or_error. Qed.
Lemma steady_token co t : steady (fun f => ast_of_ctoken co f t).
Proof.
  unfold ast_of_ctoken. destruct (ct_kind t); try (intros f f2 v H; exact H).
  - apply (steady_bind (fun f => into_date co f t)); [apply steady_date|intro; apply steady_ret].
  - destruct (existsb (fun c => (c =? c_dot)%N) (ct_text t)).
    + apply (steady_bind (fun f => or_error f t MFloat (f64_canon (co_oracle co) (ct_text t)))); [apply steady_or_error|intro; apply steady_ret].
    + apply (steady_bind (fun f => into_number f t)); [apply steady_number|intro; apply steady_ret].
  - destruct (existsb (fun c => (c =? c_dot)%N) (ct_text t)).
    + apply (steady_bind (fun f => or_error f t MFloat (f64_canon (co_oracle co) (ct_text t)))); [apply steady_or_error|intro; apply steady_ret].
    + apply (steady_bind (fun f => into_number f t)); [apply steady_number|intro; apply steady_ret].
  - intros f f2 v H. destruct (text_unquote (ct_text t)); [|exact H]. destruct (token_error_not_ok _ _ _ _ H).
Qed.
Lemma items_local co : forall n f l acc vs l', in_list_loop n co f l acc = Ok (vs, l') -> exists m, cl_input l = m ++ cl_input l' /\
  (ascii m -> forall n2 f2 r2, sim (cl_input l') r2 -> length (m ++ r2) < n2 ->
    in_list_loop n2 co f2 {| cl_input := m ++ r2; cl_offset := cl_offset l |} acc = Ok (vs, {| cl_input := r2; cl_offset := cl_offset l' |})).
Proof.
  induction n as [|n IH]; intros f l acc vs l' H; cbn [in_list_loop] in H; [discriminate H|].
  destruct (in_list_token co f l) as [[[t l1]|]| | |] eqn:T; try discriminate H; cbn [bind] in H; [|destruct (unknown_not_ok _ _ _ _ H)].
  destruct (ast_of_ctoken co f t) as [a| | |] eqn:A; try discriminate H. cbn [bind] in H.
  destruct (item_local _ _ _ _ _ T) as [m1 [E1 [N1 L1]]].
  assert (LM : 0 < length m1) by (destruct m1; [congruence|cbn; lia]). clear N1.
  destruct (peek_close_parenthesis l1) eqn:P.
  - injection H as <- <-. exists m1. split; [exact E1|]. intros Ha n2 f2 r2 S Hn. destruct n2 as [|n2]; [lia|]. cbn [in_list_loop].
    rewrite (L1 Ha f2 r2 S). cbn [bind]. rewrite (steady_token co t f f2 a A). cbn [bind]. rewrite (peek_local l1 r2 _ S), P. reflexivity.
  - destruct (IH f l1 _ vs l' H) as [m2 [E2 L2]]. exists (m1 ++ m2). split; [rewrite E1, E2, app_assoc; reflexivity|].
    intros Ha n2 f2 r2 S Hn. apply ascii_app in Ha as [A1 A2]. destruct n2 as [|n2]; [lia|]. cbn [in_list_loop]. rewrite <- app_assoc in *.
    assert (S1 : sim (cl_input l1) (m2 ++ r2)) by (rewrite E2; apply sim_app; exact S).
    rewrite (L1 A1 f2 (m2 ++ r2) S1). cbn [bind]. rewrite (steady_token co t f f2 a A). cbn [bind]. rewrite (peek_local l1 (m2 ++ r2) _ S1), P.
    apply L2; [exact A2|exact S|]. rewrite app_length in Hn. lia.
Qed.

(** ** Options *)
Lemma local_take_then {A} sub (p : parser A) : sub <> [] -> head_not_ws sub -> local p -> local (fun f l => do l1 <- take f l sub; p f l1).
Proof.
  intros Hn Hw Hp. apply (local_ext (fun f l => do (u, l1) <- take_p sub f l; (fun _ : unit => p) u f l1)).
  - intros f l. unfold take_p. destruct (take f l sub); reflexivity.
  - apply local_bind; [apply local_take; assumption|intro; exact Hp].
Qed.
Lemma local_date co : local (take_date co).
Proof.
  intros f l x l' H. unfold take_date in H. destruct (take_ws_split l) as [w [s [Hw [E1 [Hh Ho]]]]]. rewrite Ho in H.
  destruct (maybe_take_regex _ _ _) as [[[t l1]|]| | |] eqn:D; try discriminate H; cbn [bind] in H; [|destruct (unknown_not_ok _ _ _ _ H)].
  injection H as <- <-. destruct (regex_some _ _ _ _ _ (tame_date _) D) as [m [E2 L]]. cbn [cl_input cl_offset] in *.
  exists (w ++ m). split; [rewrite E1, E2, app_assoc; reflexivity|]. intros Ha f2 r2 S. apply ascii_app in Ha as [A1 A2]. unfold take_date. rewrite <- app_assoc.
  rewrite take_ws_at; [|eauto|apply (sim_ws m (cl_input l1)); [exact S|rewrite <- E2; exact Hh]]. rewrite (L A2 r2 S). reflexivity.
Qed.
Lemma local_one {A} tk (conv : field -> ctoken -> outcome cell_error A) : local tk -> (forall t, steady (fun f => conv f t)) -> local (one_in_parens tk conv).
Proof.
  intros Ht Hc. apply (local_ext (fun f l => do l1 <- take f l (lit "("); (fun f l => do (t, l2) <- tk f l; (fun t f l => match conv f t with
    | Ok v => do l3 <- take f l (lit ")"); Ok (v, l3) | Err e => do l3 <- take f l (lit ")"); Err e | Panic => Panic | NoFuel => NoFuel end) t f l2) f l1)).
  { intros f l. unfold one_in_parens. destruct (take f l (lit "(")) as [v| | |]; [|reflexivity..]. cbn [bind]. destruct (tk f v) as [[t l2]| | |]; [|reflexivity..]. cbn [bind].
    destruct (conv f t); try reflexivity. }
  apply local_take_then; [discriminate|reflexivity|]. apply local_bind; [exact Ht|]. intro t.
  intros f l x l' H. destruct (conv f t) as [v|e| |] eqn:C; try discriminate H.
  2: { destruct (take f l (lit ")")); discriminate H. }
  destruct (local_take_then (lit ")") (fun _ l => Ok (v, l)) ltac:(discriminate) ltac:(reflexivity) (local_ret v) f l x l' H) as [m [E1 L]].
  exists m. split; [exact E1|]. intros Ha f2 r2 S. rewrite (Hc t f f2 v C). exact (L Ha f2 r2 S).
Qed.
Lemma local_two {A} tk (conv : field -> ctoken -> outcome cell_error A) : local tk -> (forall t, steady (fun f => conv f t)) -> local (two_in_parens tk conv).
Proof.
  intros Ht Hc. unfold two_in_parens. apply local_take_then; [discriminate|reflexivity|].
  apply local_bind; [exact Ht|]. intro t1. apply (local_steady (fun f => conv f t1)); [apply Hc|]. intro a.
  apply local_bind; [exact Ht|]. intro t2. apply (local_steady (fun f => conv f t2)); [apply Hc|]. intro b.
  apply local_take_then; [discriminate|reflexivity|]. apply local_ret.
Qed.
Lemma local_in_list co : local (in_list co).
Proof.
  unfold in_list. apply local_take_then; [discriminate|reflexivity|].
  apply (local_bind (fun f l => in_list_loop (S (length (cl_input l))) co f l [])).
  - intros f l x l' H. destruct (items_local co _ f l [] x l' H) as [m [E1 L]]. exists m. split; [exact E1|].
    intros Ha f2 r2 S. cbn [cl_input]. apply L; [exact Ha|exact S|lia].
  - intro vs. apply local_take_then; [discriminate|reflexivity|]. apply local_ret.
Qed.
Lemma alnum_not_ws u c : is_alnum u c = true -> is_ws c = false.
Proof.
  unfold is_alnum. destruct (is_ascii c) eqn:A.
  - unfold is_ascii_alnum, is_ascii_alpha, is_ascii_upper, is_ascii_lower, is_ascii_digit, is_ws. lia.
  - intro H. apply andb_prop in H as [H _]. apply negb_true_iff in H. exact H.
Qed.
Lemma local_in_range co : local (in_range co).
Proof.
  unfold in_range. apply local_take_then; [discriminate|reflexivity|]. apply local_bind.
  - apply local_take_while. intros c H. unfold is_a1_char in H. destruct (is_alnum (co_unicode co) c) eqn:A; [apply (alnum_not_ws _ _ A)|].
    unfold is_ws, c_excl, c_squote, c_colon, c_dollar in *. lia.
  - intro t. apply (local_steady (fun f => or_error f t MRange (a1_canon co (ct_text t)))); [apply steady_or_error|]. intro a.
    apply local_take_then; [discriminate|reflexivity|]. apply local_ret.
Qed.
Lemma local_number : local take_number.
Proof. apply local_take_while. intros c H. unfold is_ascii_digit, is_ws, c_minus, c_dot in *. lia. Qed.
Lemma local_positive : local take_positive_number.
Proof. apply local_take_while. intros c H. unfold is_ascii_digit, is_ws in *. lia. Qed.
Lemma local_validation co k : local (validation_args co k).
Proof.
  destruct k; cbn [validation_args]; try apply local_ret; apply local_map;
  first [apply local_in_list|apply local_in_range
        |apply local_one; [first [apply local_string|apply local_date|apply local_number]|intro t; first [apply steady_date|apply steady_number|apply steady_ret]]
        |apply local_two; [first [apply local_date|apply local_number]|intro t; first [apply steady_date|apply steady_number]]].
Qed.
Lemma local_right co : local (take_option_right_side co).
Proof.
  unfold take_option_right_side. apply local_take_then; [discriminate|reflexivity|]. apply local_take_while. intros c H.
  destruct (is_alnum (co_unicode co) c) eqn:A; [apply (alnum_not_ws _ _ A)|]. unfold is_ws, c_underscore in *. lia.
Qed.
Definition pmaybe (sub : str) : parser bool := fun _ l => match maybe_take l sub with (Some l1, _) => Ok (true, l1) | (None, l1) => Ok (false, l1) end.
Lemma pmaybe_cases sub f l x l' : pmaybe sub f l = Ok (x, l') -> exists w s, spaces w /\ cl_input l = w ++ s /\ head_not_ws s /\
  (x = true /\ s = sub ++ cl_input l' /\ cl_offset l' = cl_offset l + utf8_len w + utf8_len sub
   \/ x = false /\ strip_prefix sub s = None /\ cl_input l' = s /\ cl_offset l' = cl_offset l + utf8_len w).
Proof.
  intro H. unfold pmaybe, maybe_take in H. destruct (take_ws_split l) as [w [s [Hw [E1 [Hh Ho]]]]]. rewrite Ho in H. cbn [cl_input cl_offset] in H.
  exists w, s. split; [exact Hw|]. split; [exact E1|]. split; [exact Hh|]. destruct (strip_prefix sub s) as [r|] eqn:S.
  - injection H as <- <-. left. apply strip_prefix_spec in S. auto.
  - injection H as <- <-. right. auto.
Qed.
Lemma pmaybe_true sub f2 w r2 o : spaces w -> sub <> [] -> head_not_ws sub ->
  pmaybe sub f2 {| cl_input := (w ++ sub) ++ r2; cl_offset := o |} = Ok (true, {| cl_input := r2; cl_offset := o + utf8_len w + utf8_len sub |}).
Proof.
  intros Hw Hn Hs. unfold pmaybe, maybe_take. rewrite <- app_assoc, take_ws_at; [|eauto|destruct sub; [congruence|exact Hs]].
  cbn [cl_input cl_offset]. rewrite CellProofs.strip_prefix_app. reflexivity.
Qed.
Lemma local_maybe sub : sub <> [] -> head_not_ws sub -> (exists a, sub = [a]) \/ (exists a b, sub = [a; b]) -> local (pmaybe sub).
Proof.
  intros Hn Hs Hl f l x l' H. destruct (pmaybe_cases _ _ _ _ _ H) as [w [s [Hw [E1 [Hh [[-> [-> O]]|[-> [P [E2 O]]]]]]]]].
  - exists (w ++ sub). split; [rewrite E1, app_assoc; reflexivity|]. intros _ f2 r2 _. rewrite (pmaybe_true sub f2 w r2 _ Hw Hn Hs), O. reflexivity.
  - exists w. split; [rewrite E1, E2; reflexivity|]. intros _ f2 r2 S. unfold pmaybe, maybe_take. rewrite E2 in S.
    rewrite take_ws_at; [|eauto|apply (sim_ws [] s); assumption]. cbn [cl_input cl_offset].
    assert (X : strip_prefix sub r2 = None).
    { destruct (sim_two _ _ S) as [c [d [a [b [-> ->]]]]]. destruct Hl as [[u ->]|[u [v ->]]]; cbn [strip_prefix] in *.
      - destruct (u =? c)%N; [discriminate P|reflexivity].
      - destruct (u =? c)%N; [|reflexivity]. destruct (v =? d)%N; [discriminate P|reflexivity]. }
    rewrite X, O. reflexivity.
Qed.
Lemma local_fail {A} (p : parser A) : (forall f l x, p f l <> Ok x) -> local p.
Proof. intros H f l x l' E1. destruct (H f l _ E1). Qed.
Lemma local_value co is_row k name : local (option_value co is_row k name).
Proof.
  assert (W : forall A (of : str -> option A) m mk, local (word_option co of m mk)).
  { intros A of m mk. unfold word_option. apply local_bind; [apply local_right|]. intro t.
    apply (local_steady (fun f => or_error f t m (of (to_lowercase co (ct_text t))))); [apply steady_or_error|]. intro v. apply local_ret. }
  assert (C : forall mk, local (color_option co mk)).
  { intro mk. unfold color_option. apply local_take_then; [discriminate|reflexivity|]. apply local_bind; [apply local_color|]. intro t.
    apply (local_steady (fun f => rgb_of_token f t)); [apply steady_rgb|]. intro v. apply local_ret. }
  assert (T : forall mk, local (string_option co mk)).
  { intro mk. unfold string_option. apply local_take_then; [discriminate|reflexivity|]. apply local_bind; [apply local_string|]. intro t. apply local_ret. }
  destruct k; cbn [option_value]; try apply W; try apply C; try apply T; try apply local_ret.
  - unfold validate_option. apply local_bind; [apply local_right|]. intro t.
    apply (local_steady (fun f => or_error f t (MInvalidValue (lit "validate") possible_validations) (vkind_of (to_lowercase co (ct_text t))))); [apply steady_or_error|].
    intro v. apply local_map, local_validation.
  - unfold fill_option. destruct is_row; cbn [negb].
    2: { apply local_fail. intros f l x H. destruct (token_error_not_ok _ _ _ _ H). }
    apply (local_ext (fun f l => do (b, l1) <- pmaybe [c_eq] f l; (fun b : bool => if b then (fun f l => do (t, l2) <- take_positive_number f l;
      (fun t f l => do n <- or_error f t MFillAmount (parse_unsigned USIZE_MAX (ct_text t)); (fun n _ l => Ok (OFill (Some n), l)) n f l) t f l2) else (fun _ l => Ok (OFill None, l))) b f l1)).
    { intros f l. unfold pmaybe. destruct (maybe_take l [c_eq]) as [[l1|] l2]; cbn [bind]; reflexivity. }
    apply local_bind; [apply local_maybe; [discriminate|reflexivity|eauto]|]. intros []; [|apply local_ret].
    apply local_bind; [apply local_positive|]. intro t. apply (local_steady (fun f => or_error f t MFillAmount (parse_unsigned USIZE_MAX (ct_text t)))); [apply steady_or_error|].
    intro n. apply local_ret.
  - unfold font_size_option. apply local_take_then; [discriminate|reflexivity|]. apply local_bind; [apply local_positive|]. intro t.
    apply (local_steady (fun f => or_error f t MFontSize (parse_unsigned 255 (ct_text t)))); [apply steady_or_error|]. intro n. apply local_ret.
  - unfold var_option. apply local_bind; [apply local_right|]. intro t. apply local_ret.
Qed.
Lemma local_name co : local (take_option_name co).
Proof. apply local_take_while. intros c H. apply (alnum_not_ws _ _ H). Qed.
Lemma local_option co is_row : local (parse_option co is_row).
Proof.
  unfold parse_option. apply local_bind; [apply local_name|]. intro t.
  apply (local_steady (fun f => or_error f t MUnknownOption (okind_of (ct_text t)))); [apply steady_or_error|]. intro k. apply local_value.
Qed.

(** ** A whole list: nothing after its closing brackets is looked at *)
Lemma options_local co is_row : forall n f l s s' l', parse_cell_options n co is_row f l s = Ok (s', l') -> exists m, cl_input l = m ++ cl_input l'
  /\ (exists p, m = p ++ lit "]]") /\
  (ascii m -> forall n2 f2 r2, f_address f2 = f_address f -> length m < n2 ->
    parse_cell_options n2 co is_row f2 {| cl_input := m ++ r2; cl_offset := cl_offset l |} s = Ok (s', {| cl_input := r2; cl_offset := cl_offset l' |})).
Proof.
  induction n as [|n IH]; intros f l s s' l' H; cbn [parse_cell_options] in H; [discriminate H|].
  destruct (parse_option co is_row f l) as [[o l1]| | |] eqn:O; try discriminate H. cbn [bind] in H.
  pose proof (parse_option_eats co is_row f l) as Eat. rewrite O in Eat. cbn in Eat.
  destruct (local_option co is_row f l o l1 O) as [m1 [E1 L1]].
  assert (LM : 0 < length m1) by (rewrite E1, app_length in Eat; lia).
  assert (AS : forall f2, f_address f2 = f_address f -> assign is_row f2 o s = assign is_row f o s).
  { intros f2 Ef. unfold assign. rewrite Ef. reflexivity. }
  destruct (maybe_take l1 (lit "/")) as [[l2|] l3] eqn:M.
  - assert (P : pmaybe (lit "/") f l1 = Ok (true, l2)) by (unfold pmaybe; rewrite M; reflexivity).
    destruct (local_maybe (lit "/") ltac:(discriminate) ltac:(reflexivity) ltac:(left; eexists; reflexivity) f l1 true l2 P) as [m2 [E2 L2]].
    destruct (IH f l2 _ s' l' H) as [m3 [E3 [[p Ep] L3]]]. exists (m1 ++ m2 ++ m3). split; [rewrite E1, E2, E3, <- !app_assoc; reflexivity|].
    split; [exists (m1 ++ m2 ++ p); rewrite Ep, <- !app_assoc; reflexivity|]. intros Ha n2 f2 r2 Ef Hn. apply ascii_app in Ha as [A1 Ha]. apply ascii_app in Ha as [A2 A3].
    destruct n2 as [|n2]; [lia|]. cbn [parse_cell_options]. rewrite <- !app_assoc.
    assert (S3 : sim (m3 ++ cl_input l') (m3 ++ r2)) by (rewrite Ep, <- !app_assoc; exists p, (cl_input l'), r2; auto).
    rewrite (L1 A1 f2 (m2 ++ m3 ++ r2)) by (rewrite E2, E3; apply sim_app; exact S3). cbn [bind].
    assert (P2 := L2 A2 f2 (m3 ++ r2) ltac:(rewrite E3; exact S3)). unfold pmaybe in P2.
    destruct (maybe_take {| cl_input := m2 ++ m3 ++ r2; cl_offset := cl_offset l1 |} (lit "/")) as [[k1|] k2]; [|discriminate P2]. injection P2 as ->.
    rewrite (AS f2 Ef). apply L3; [exact A3|exact Ef|]. rewrite !app_length in Hn. lia.
  - assert (P : pmaybe (lit "/") f l1 = Ok (false, l3)) by (unfold pmaybe; rewrite M; reflexivity).
    destruct (local_maybe (lit "/") ltac:(discriminate) ltac:(reflexivity) ltac:(left; eexists; reflexivity) f l1 false l3 P) as [m2 [E2 L2]].
    destruct (maybe_take l3 (lit "]]")) as [[l4|] l5] eqn:M2.
    + assert (P3 : pmaybe (lit "]]") f l3 = Ok (true, l4)) by (unfold pmaybe; rewrite M2; reflexivity). injection H as <- <-.
      destruct (pmaybe_cases _ _ _ _ _ P3) as [w [q [Hw [E3 [_ [[_ [Eq O3]]|[X _]]]]]]]; [|discriminate X]. subst q.
      exists (m1 ++ m2 ++ w ++ lit "]]"). split; [rewrite E1, E2, E3, <- !app_assoc; reflexivity|].
      split; [exists (m1 ++ m2 ++ w); rewrite <- !app_assoc; reflexivity|]. intros Ha n2 f2 r2 Ef Hn. apply ascii_app in Ha as [A1 Ha]. apply ascii_app in Ha as [A2 A3].
      destruct n2 as [|n2]; [lia|]. cbn [parse_cell_options]. rewrite <- !app_assoc.
      assert (S3 : sim (cl_input l3) (w ++ lit "]]" ++ r2)) by (rewrite E3; exists w, (cl_input l4), r2; auto).
      rewrite (L1 A1 f2 (m2 ++ w ++ lit "]]" ++ r2)) by (rewrite E2; apply sim_app; exact S3). cbn [bind].
      assert (P2 := L2 A2 f2 (w ++ lit "]]" ++ r2) S3). unfold pmaybe in P2.
      destruct (maybe_take {| cl_input := m2 ++ w ++ lit "]]" ++ r2; cl_offset := cl_offset l1 |} (lit "/")) as [[k1|] k2]; [discriminate P2|]. injection P2 as ->.
      change (w ++ 93%N :: 93%N :: r2) with (w ++ lit "]]" ++ r2). pose proof (pmaybe_true (lit "]]") f2 w r2 (cl_offset l3) Hw ltac:(discriminate) ltac:(reflexivity)) as P4. rewrite <- app_assoc in P4. unfold pmaybe in P4.
      destruct (maybe_take {| cl_input := w ++ lit "]]" ++ r2; cl_offset := cl_offset l3 |} (lit "]]")) as [[k1|] k3]; [|discriminate P4]. injection P4 as ->.
      rewrite (AS f2 Ef), O3. reflexivity.
    + assert (P3 : pmaybe (lit "]]") f l3 = Ok (false, l5)) by (unfold pmaybe; rewrite M2; reflexivity).
      destruct (local_maybe (lit "]]") ltac:(discriminate) ltac:(reflexivity) ltac:(right; do 2 eexists; reflexivity) f l3 false l5 P3) as [m3 [E3 L3]].
      destruct (IH f l5 _ s' l' H) as [m4 [E4 [[p Ep] L4]]]. exists (m1 ++ m2 ++ m3 ++ m4). split; [rewrite E1, E2, E3, E4, <- !app_assoc; reflexivity|].
      split; [exists (m1 ++ m2 ++ m3 ++ p); rewrite Ep, <- !app_assoc; reflexivity|]. intros Ha n2 f2 r2 Ef Hn.
      apply ascii_app in Ha as [A1 Ha]. apply ascii_app in Ha as [A2 Ha]. apply ascii_app in Ha as [A3 A4].
      destruct n2 as [|n2]; [lia|]. cbn [parse_cell_options]. rewrite <- !app_assoc.
      assert (S4 : sim (m4 ++ cl_input l') (m4 ++ r2)) by (rewrite Ep, <- !app_assoc; exists p, (cl_input l'), r2; auto).
      rewrite (L1 A1 f2 (m2 ++ m3 ++ m4 ++ r2)) by (rewrite E2, E3, E4; do 2 apply sim_app; exact S4). cbn [bind].
      assert (P2 := L2 A2 f2 (m3 ++ m4 ++ r2) ltac:(rewrite E3, E4; apply sim_app; exact S4)). unfold pmaybe in P2.
      destruct (maybe_take {| cl_input := m2 ++ m3 ++ m4 ++ r2; cl_offset := cl_offset l1 |} (lit "/")) as [[k1|] k2]; [discriminate P2|]. injection P2 as ->.
      assert (P4 := L3 A3 f2 (m4 ++ r2) ltac:(rewrite E4; exact S4)). unfold pmaybe in P4.
      destruct (maybe_take {| cl_input := m3 ++ m4 ++ r2; cl_offset := cl_offset l3 |} (lit "]]")) as [[k1|] k3]; [discriminate P4|]. injection P4 as ->.
      rewrite (AS f2 Ef). apply L4; [exact A4|exact Ef|]. rewrite !app_length in Hn. lia.
Qed.

(** ** The lists of a cell *)
Lemma report_at {A} f s n : n < length (f_positions f) -> exists e, @report A f s n = Err e.
Proof.
  intro H. unfold report, position_for_offset. destruct (Nat.leb_spec (length (f_positions f)) n); [lia|].
  destruct (nth_error (f_positions f) n) eqn:E1; [eauto|]. apply nth_error_None in E1. lia.
Qed.
Lemma start_found f w st r o : spaces w -> ascii w -> o + length w < length (f_positions f) ->
  exists tok l0, maybe_take_start_options {| cl_input := w ++ (match st with StartCell => lit "[[" | StartRow => lit "![[" end) ++ r; cl_offset := o |}
    = (Some (st, tok, {| cl_input := r; cl_offset := o + length w + match st with StartCell => 2 | StartRow => 3 end |}), l0) /\ tok_at f tok.
Proof.
  intros Hw Ha Hp. unfold maybe_take_start_options. rewrite take_ws_at; [|eauto|destruct st; reflexivity].
  rewrite (utf8_len_ascii w Ha). cbn [cl_input cl_offset].
  assert (T : forall k s, tok_at f (match_token {| cl_input := s; cl_offset := o + length w |} k s)) by (intros k s A m; apply (report_at (A := A)); cbn; lia).
  destruct st.
  - rewrite CellProofs.strip_prefix_app. do 2 eexists. split; [reflexivity|]. intros A m. apply (report_at (A := A)). cbn. lia.
  - replace (strip_prefix (lit "[[") (lit "![[" ++ r)) with (@None str) by reflexivity. rewrite CellProofs.strip_prefix_app.
    do 2 eexists. split; [reflexivity|]. intros A m. apply (report_at (A := A)). cbn. lia.
Qed.
Lemma run_address is_row f f2 os s : f_address f2 = f_address f -> run is_row f2 os s = run is_row f os s.
Proof.
  intro H. unfold run. revert s. induction os as [|o os IH]; intro s; [reflexivity|]. cbn [fold_left]. rewrite IH. unfold assign. rewrite H. reflexivity.
Qed.
Lemma options_done co is_row f x os rest v o n s : options_text co true is_row x os -> ascii (x ++ rest) -> o + length (x ++ rest) <= length (f_positions f) ->
  0 < length (f_positions f) -> length x < n -> exists o', o' + length rest <= length (f_positions f) /\
  parse_cell_options n co is_row f {| cl_input := x ++ rest ++ v; cl_offset := o |} s = Ok (run is_row f os s, {| cl_input := rest ++ v; cl_offset := o' |}).
Proof.
  intros Hx Ha Ho Hp Hn.
  assert (W : wf f {| cl_input := x ++ rest; cl_offset := o |}) by (split; [exact Ha|split; [exact Ho|exact Hp]]).
  destruct (parse_cell_options_complete co is_row f x os Hx (S (length (x ++ rest))) {| cl_input := x ++ rest; cl_offset := o |} s rest W (or_intror eq_refl) ltac:(cbn; lia)) as [l' [P [E1 W']]].
  destruct (options_local co is_row _ f _ s _ l' P) as [m [E2 [_ L]]]. cbn [cl_input cl_offset] in *. rewrite E1 in E2.
  apply app_inv_tail in E2. subst m. exists (cl_offset l'). split; [destruct W' as [_ [W' _]]; rewrite E1 in W'; exact W'|].
  apply ascii_app in Ha as [Ha _]. exact (L Ha n f (rest ++ v) eq_refl Hn).
Qed.
Lemma lists_complete co f v : no_list v -> 0 < length (f_positions f) -> forall t ls, lists_text co true t ls -> ascii t ->
  forall n o parsed r, o + length t <= length (f_positions f) -> length (t ++ v) < n ->
  if placed (addr_x (f_address f)) (match parsed with Some _ => true | None => false end) ls
  then exists l', parse_option_lists n co f {| cl_input := t ++ v; cl_offset := o |} parsed r = Ok (merged parsed (lists_cell f ls r), row_after f ls r, l')
    /\ exists w, spaces w /\ v = w ++ cl_input l'
  else exists e, parse_option_lists n co f {| cl_input := t ++ v; cl_offset := o |} parsed r = Err e.
Proof.
  intros Hv Hp t ls Hls. induction Hls as [|w x os rest ls Hw Hx Hls IH|w x os rest ls Hw Hx Hls IH]; intros Ha n o parsed r Ho Hn.
  - destruct n as [|n]; [lia|]. cbn [placed parse_option_lists app] in *. unfold maybe_take_start_options.
    destruct (take_ws_split {| cl_input := v; cl_offset := o |}) as [w [s [Hw [E1 [_ Eo]]]]]. cbn [cl_input cl_offset] in *.
    change (cl_input (take_whitespace {| cl_input := v; cl_offset := o |})) with (trim_start v). destruct Hv as [N1 N2].
    destruct (strip_prefix (lit "[[") (trim_start v)) as [q|] eqn:S1; [apply strip_prefix_spec in S1; destruct N1; eauto|].
    destruct (strip_prefix (lit "![[") (trim_start v)) as [q|] eqn:S2; [apply strip_prefix_spec in S2; destruct N2; eauto|].
    eexists. split; [rewrite row_after_nil; destruct parsed; reflexivity|]. rewrite Eo. exists w. split; [exact Hw|exact E1].
  - destruct n as [|n]; [lia|]. rewrite !app_length in Ho. rewrite !app_length in Hn. cbn in Ho, Hn. apply ascii_app in Ha as [Aw Ha]. apply ascii_app in Ha as [_ Ha].
    destruct (start_found f w StartCell (x ++ rest ++ v) o Hw Aw ltac:(lia)) as [tok [l0 [X1 X4]]]. cbn [parse_option_lists]. rewrite <- !app_assoc. rewrite X1. cbn [andb negb].
    cbn [placed]. destruct parsed as [c|]; cbn [negb andb].
    { apply X4. }
    destruct (options_done co false f x os rest v (o + length w + 2) (S (length (x ++ rest ++ v))) (cell_default_from r f, r) Hx Ha ltac:(rewrite app_length; lia) Hp ltac:(rewrite !app_length; lia))
      as [o' [O1 O2]].
    cbn [cl_input]. rewrite O2. cbn [bind]. rewrite run_cell. cbn [fst snd]. apply ascii_app in Ha as [_ Ha].
    exact (IH Ha n o' (Some (cell_with os (cell_default_from r f))) r O1 ltac:(rewrite app_length; lia)).
  - destruct n as [|n]; [lia|]. rewrite !app_length in Ho. rewrite !app_length in Hn. cbn in Ho, Hn. apply ascii_app in Ha as [Aw Ha]. apply ascii_app in Ha as [_ Ha].
    destruct (start_found f w StartRow (x ++ rest ++ v) o Hw Aw ltac:(lia)) as [tok [l0 [X1 X4]]]. cbn [parse_option_lists]. rewrite <- !app_assoc. rewrite X1. cbn [negb].
    cbn [placed]. destruct (addr_x (f_address f) =? 0) eqn:X; cbn [negb andb].
    2: { apply X4. }
    destruct (options_done co true f x os rest v (o + length w + 3) (S (length (x ++ rest ++ v))) (cell_default_from r f, r) Hx Ha ltac:(rewrite app_length; lia) Hp ltac:(rewrite !app_length; lia))
      as [o' [O1 O2]].
    cbn [cl_input]. rewrite O2. cbn [bind]. rewrite run_row. cbn [fst snd]. apply ascii_app in Ha as [_ Ha]. rewrite row_after_cons_row.
    exact (IH Ha n o' parsed (row_with f os r) O1 ltac:(rewrite app_length; lia)).
Qed.
Lemma options_found co is_row n f l s s' l' : parse_cell_options n co is_row f l s = Ok (s', l') ->
  exists x os, cl_input l = x ++ cl_input l' /\ (exists p, x = p ++ lit "]]") /\ (ascii x -> options_text co false is_row x os /\ s' = run is_row f os s).
Proof.
  intro H. destruct (options_local co is_row n f l s s' l' H) as [m [E1 [Ep L]]].
  destruct (forallb is_ascii m) eqn:Ha.
  2: { exists m, []. split; [exact E1|]. split; [exact Ep|]. intro A. unfold ascii in A. congruence. }
  pose (f2 := {| f_address := f_address f; f_value := []; f_positions := repeat {| line_number := 0; line_offset := 0 |} (S (cl_offset l + length m)) |}).
  specialize (L Ha (S (length m)) f2 [] eq_refl ltac:(lia)). rewrite app_nil_r in L.
  assert (W : wf f2 {| cl_input := m; cl_offset := cl_offset l |}) by (split; [exact Ha|cbn [f2 f_positions cl_input cl_offset]; rewrite repeat_length; lia]).
  pose proof (parse_cell_options_sound co is_row f2 (S (length m)) _ s W ltac:(cbn; lia)) as SND. rewrite L in SND.
  destruct SND as [_ [x [os [E2 [Hx Es]]]]]. cbn [cl_input] in E2. rewrite app_nil_r in E2. subst x.
  exists m, os. split; [exact E1|]. split; [exact Ep|]. intros _. split; [exact Hx|]. rewrite Es. apply run_address. reflexivity.
Qed.
Lemma ascii_lists_drop w s : ascii_lists (w ++ s) -> ascii_lists s.
Proof. intros H a b ->. specialize (H (w ++ a) b ltac:(rewrite <- app_assoc; reflexivity)). apply ascii_app in H as [_ H]. exact H. Qed.
Lemma start_cases l : match maybe_take_start_options l with
  | (Some (st, tok, l'), _) => exists w, spaces w /\ cl_input l = w ++ (match st with StartCell => lit "[[" | StartRow => lit "![[" end) ++ cl_input l'
  | (None, l') => no_list (cl_input l) /\ exists w, spaces w /\ cl_input l = w ++ cl_input l'
  end.
Proof.
  unfold maybe_take_start_options. destruct (take_ws_split l) as [w [s [Hw [E1 [_ Eo]]]]].
  assert (T : trim_start (cl_input l) = s) by (change (trim_start (cl_input l)) with (cl_input (take_whitespace l)); rewrite Eo; reflexivity).
  rewrite Eo. cbn [cl_input cl_offset].
  destruct (strip_prefix (lit "[[") s) as [r|] eqn:S1; [apply strip_prefix_spec in S1; exists w; cbn [cl_input]; rewrite E1, S1; auto|].
  destruct (strip_prefix (lit "![[") s) as [r|] eqn:S2; [apply strip_prefix_spec in S2; exists w; cbn [cl_input]; rewrite E1, S2; auto|].
  split; [|exists w; auto]. split; intros [r Er]; rewrite T in Er; rewrite Er, CellProofs.strip_prefix_app in *; discriminate.
Qed.
Lemma lists_sound co f : forall n l parsed r p r' l', ascii_lists (cl_input l) -> parse_option_lists n co f l parsed r = Ok (p, r', l') ->
  exists t ls w, cl_input l = t ++ w ++ cl_input l' /\ spaces w /\ ascii t /\ lists_text co false t ls
      /\ no_list (w ++ cl_input l') /\ placed (addr_x (f_address f)) (match parsed with Some _ => true | None => false end) ls = true
      /\ r' = row_after f ls r /\ p = merged parsed (lists_cell f ls r).
Proof.
  induction n as [|n IH]; intros l parsed r p r' l' A H; cbn [parse_option_lists] in H; [discriminate H|].
  pose proof (start_cases l) as S. destruct (maybe_take_start_options l) as [[[[st tok] l1]|] l0].
  2: { injection H as <- <- <-. destruct S as [N [w [Hw E]]]. exists [], [], w. split; [exact E|]. split; [exact Hw|]. split; [reflexivity|].
       split; [constructor|]. split; [rewrite <- E; exact N|]. split; [reflexivity|]. split; [rewrite row_after_nil; reflexivity|]. destruct parsed; reflexivity. }
  destruct S as [w [Hw E]].
  assert (G : forall is_row s' l2, parse_cell_options (Datatypes.S (length (cl_input l1))) co is_row f l1 (cell_default_from r f, r) = Ok (s', l2) ->
    exists x os, cl_input l1 = x ++ cl_input l2 /\ ascii x /\ ascii w /\ options_text co false is_row x os /\ s' = run is_row f os (cell_default_from r f, r)
      /\ ascii_lists (cl_input l2)).
  { intros is_row s' l2 O. destruct (options_found _ _ _ _ _ _ _ _ O) as [x [os [E2 [[q Eq] X]]]].
    assert (AX : ascii w /\ ascii x).
    { rewrite E, E2, Eq in A.
      specialize (A (w ++ match st with StartCell => lit "[[" | StartRow => lit "![[" end ++ q) (cl_input l2) ltac:(rewrite <- !app_assoc; reflexivity)).
      apply ascii_app in A as [A1 A]. apply ascii_app in A as [_ A]. split; [exact A1|]. rewrite Eq. apply ascii_app. split; [exact A|reflexivity]. }
    exists x, os. destruct AX as [A1 A2]. destruct (X A2) as [X1 X2]. split; [exact E2|]. split; [exact A2|]. split; [exact A1|]. split; [exact X1|]. split; [exact X2|].
    rewrite E, E2 in A. apply ascii_lists_drop in A. apply ascii_lists_drop in A. apply ascii_lists_drop in A. exact A. }
  destruct st.
  - cbn [andb negb] in H. destruct parsed as [c|]; [destruct (token_error_not_ok _ _ _ _ H)|].
    destruct (parse_cell_options (Datatypes.S (length (cl_input l1))) co false f l1 (cell_default_from r f, r)) as [[s' l2]| | |] eqn:O; try discriminate H. cbn [bind] in H.
    destruct (G false s' l2 O) as [x [os [E2 [Ax [Aw [Hx [Es A2]]]]]]]. rewrite run_cell in Es. subst s'. cbn [fst snd] in H.
    destruct (IH l2 _ _ _ _ _ A2 H) as [t [ls [w' [E3 [Hw' [At [Hls [N [P [Er Ep]]]]]]]]]].
    exists (w ++ lit "[[" ++ x ++ t), ((false, os) :: ls), w'. split; [rewrite E, E2, E3, <- !app_assoc; reflexivity|].
    split; [exact Hw'|]. split; [repeat (apply ascii_app; split); auto; reflexivity|]. split; [apply ls_cell; assumption|].
    split; [exact N|]. split; [exact P|]. split; [exact Er|exact Ep].
  - cbn [negb] in H. destruct (addr_x (f_address f) =? 0) eqn:X; cbn [andb negb] in H.
    2: { destruct (token_error_not_ok _ _ _ _ H). }
    destruct (parse_cell_options (Datatypes.S (length (cl_input l1))) co true f l1 (cell_default_from r f, r)) as [[s' l2]| | |] eqn:O; try discriminate H. cbn [bind] in H.
    destruct (G true s' l2 O) as [x [os [E2 [Ax [Aw [Hx [Es A2]]]]]]]. rewrite run_row in Es. subst s'. cbn [fst snd] in H.
    destruct (IH l2 _ _ _ _ _ A2 H) as [t [ls [w' [E3 [Hw' [At [Hls [N [P [Er Ep]]]]]]]]]].
    exists (w ++ lit "![[" ++ x ++ t), ((true, os) :: ls), w'. split; [rewrite E, E2, E3, <- !app_assoc; reflexivity|].
    split; [exact Hw'|]. split; [repeat (apply ascii_app; split); auto; reflexivity|]. split; [apply ls_row; assumption|]. split; [exact N|].
    split; [cbn [placed]; rewrite X; exact P|]. split; [rewrite row_after_cons_row; exact Er|exact Ep].
Qed.
(** ** The cell *)
Lemma cell_accepted co f r c r' : ascii_lists (f_value f) -> parse_cell co f r = Ok (c, r') ->
  exists t ls v, f_value f = t ++ v /\ ascii t /\ lists_text co false t ls /\ well_placed (addr_x (f_address f)) ls /\ no_list v
      /\ c = cell_after f ls v r /\ r' = row_after f ls r.
Proof.
  intros A H. unfold parse_cell in H.
  destruct (parse_option_lists _ co f _ None r) as [[[p r0] l']| | |] eqn:O; try discriminate H. cbn [bind] in H. injection H as <- <-.
  destruct (lists_sound co f _ {| cl_input := f_value f; cl_offset := 0 |} _ _ _ _ _ A O) as [t [ls [w [E [Hw [At [Hls [N [P [-> ->]]]]]]]]]]. cbn [cl_input merged] in *.
  exists t, ls, (w ++ cl_input l'). split; [exact E|]. split; [exact At|]. split; [exact Hls|]. split.
  { apply placed_spec in P. unfold well_placed. rewrite Nat.add_0_r in P. exact P. }
  split; [exact N|]. split; [|reflexivity]. pose proof (lists_cell_spec f _ (w ++ cl_input l') ls r P) as C. cbn zeta in C.
  rewrite trim_spaces in C by exact Hw. unfold rest. rewrite <- C. reflexivity.
Qed.
Lemma cell_complete co f r t ls v : ascii t -> located f -> f_value f = t ++ v -> lists_text co true t ls -> no_list v ->
  (well_placed (addr_x (f_address f)) ls -> parse_cell co f r = Ok (cell_after f ls v r, row_after f ls r)) /\
  (~ well_placed (addr_x (f_address f)) ls -> exists e, parse_cell co f r = Err e).
Proof.
  intros A L E Hls N. destruct (f_value f) as [|c0 s0] eqn:E0.
  { symmetry in E. apply app_eq_nil in E as [-> ->].
    assert (ls = []) as -> by (inversion Hls; subst; auto; destruct w; discriminate).
    split; [intros _; apply parse_cell_empty; exact E0|]. intro H. destruct H. split; [right; reflexivity|cbn; lia]. }
  unfold located in L. assert (Hp : 0 < length (f_positions f)) by (rewrite E0 in L; cbn in L; lia).
  rewrite <- E0 in *. clear c0 s0 E0.
  pose proof (lists_complete co f v N Hp t ls Hls A (S (length (f_value f))) 0 None r ltac:(rewrite E, app_length in L; lia) ltac:(rewrite E; lia)) as SND.
  rewrite <- E in SND. cbn iota in SND. destruct (placed (addr_x (f_address f)) false ls) eqn:P.
  - split.
    + intros _. destruct SND as [l' [SND1 [w [Hw Ev]]]]. unfold parse_cell. rewrite SND1. cbn [bind merged].
      pose proof (lists_cell_spec f _ v ls r P) as C. cbn zeta in C. unfold rest. rewrite Ev, trim_spaces in C by exact Hw.
      rewrite Ev, <- C. reflexivity.
    + intro H. destruct H. apply placed_spec in P. unfold well_placed. rewrite Nat.add_0_r in P. exact P.
  - split.
    + intro H. assert (P' : placed (addr_x (f_address f)) false ls = true).
      { apply placed_spec. rewrite Nat.add_0_r. exact H. }
      congruence.
    + intros _. destruct SND as [e SND1]. exists e. unfold parse_cell. rewrite SND1. reflexivity.
Qed.
