From Verif Require Import Base.

Lemma str_eqb_spec a b : reflect (a = b) (str_eqb a b).
Proof.
  revert b; induction a as [|x a IH]; destruct b as [|y b]; cbn; try (constructor; congruence).
  destruct (N.eqb_spec x y) as [->|Hne]; cbn.
  - destruct (IH b) as [->|Hne]; constructor; congruence.
  - constructor; congruence.
Qed.
Lemma str_eqb_refl a : str_eqb a a = true.
Proof. destruct (str_eqb_spec a a); congruence. Qed.
Lemma str_eqb_eq a b : str_eqb a b = true <-> a = b.
Proof. destruct (str_eqb_spec a b); split; congruence. Qed.
Lemma str_eqb_neq a b : str_eqb a b = false <-> a <> b.
Proof. destruct (str_eqb_spec a b); split; congruence. Qed.
Lemma str_eqb_sym a b : str_eqb a b = str_eqb b a.
Proof. destruct (str_eqb_spec a b), (str_eqb_spec b a); congruence. Qed.
Lemma str_dec (a b : str) : {a = b} + {a <> b}.
Proof. destruct (str_eqb_spec a b); auto. Qed.

Lemma bind_ok_inv {E A B} (x : outcome E A) (f : A -> outcome E B) b :
  bind x f = Ok b -> exists a, x = Ok a /\ f a = Ok b.
Proof. destruct x; cbn; intros H; try discriminate. eauto. Qed.

(** ** trim *)
Lemma trim_start_app_ws a b : forallb is_ws a = true -> trim_start (a ++ b) = trim_start b.
Proof.
  induction a as [|x a IH]; cbn; intros H; [reflexivity|].
  apply andb_true_iff in H as [Hx Ha]. rewrite Hx. auto.
Qed.
Lemma trim_start_nonws c r : is_ws c = false -> trim_start (c :: r) = c :: r.
Proof. cbn. now intros ->. Qed.
Lemma trim_start_suffix s : exists a, s = a ++ trim_start s /\ forallb is_ws a = true.
Proof.
  induction s as [|c r [a [IH1 IH2]]]; [exists []; auto|].
  cbn. destruct (is_ws c) eqn:Hc.
  - exists (c :: a). cbn. rewrite Hc, IH2. split; [congruence | auto].
  - exists []. auto.
Qed.
Lemma trim_start_idem s : trim_start (trim_start s) = trim_start s.
Proof.
  induction s as [|c r IH]; [reflexivity|]. cbn. destruct (is_ws c) eqn:Hc; [exact IH|].
  cbn. now rewrite Hc.
Qed.
Lemma trim_start_blank s : trim_start s = [] <-> forallb is_ws s = true.
Proof.
  induction s as [|c r IH]; cbn; [tauto|]. destruct (is_ws c); cbn; [exact IH|].
  split; discriminate.
Qed.
Lemma trim_trim_start s : trim (trim_start s) = trim s.
Proof. unfold trim. now rewrite trim_start_idem. Qed.
Lemma trim_start_head s c r : trim_start s = c :: r -> is_ws c = false.
Proof.
  induction s as [|x s IH]; cbn; [discriminate|].
  destruct (is_ws x) eqn:Hx; [exact IH|]. intros [= -> ->]. exact Hx.
Qed.
Lemma trim_blank s : forallb is_ws s = true -> trim s = [].
Proof. intros H. apply trim_start_blank in H. unfold trim. now rewrite H. Qed.
Lemma trim_start_nil_trim s : trim_start s = [] -> trim s = [].
Proof. unfold trim. now intros ->. Qed.
Lemma trim_end_prefix s : exists b, s = trim_end s ++ b /\ forallb is_ws b = true.
Proof.
  unfold trim_end. destruct (trim_start_suffix (rev s)) as [a [H1 H2]].
  exists (rev a). split.
  - rewrite <- (rev_involutive s) at 1. rewrite H1 at 1. rewrite rev_app_distr. reflexivity.
  - rewrite forallb_forall in *. intros x Hx. apply H2. now apply in_rev.
Qed.

Lemma trim_end_idem s : trim_end (trim_end s) = trim_end s.
Proof. unfold trim_end. now rewrite rev_involutive, trim_start_idem. Qed.
Lemma trim_idem s : trim (trim s) = trim s.
Proof.
  unfold trim at 1. assert (E : trim_start (trim s) = trim s).
  { unfold trim. destruct (trim_end_prefix (trim_start s)) as [b [E _]].
    destruct (trim_end (trim_start s)) as [|c r] eqn:Et; [reflexivity|]. cbn in E.
    apply trim_start_nonws. eapply trim_start_head. exact E. }
  rewrite E. unfold trim. apply trim_end_idem.
Qed.

Lemma forallb_app_true {A} (f : A -> bool) a b :
  forallb f (a ++ b) = true <-> forallb f a = true /\ forallb f b = true.
Proof. rewrite forallb_app. apply andb_true_iff. Qed.

(** ** association lists *)
Lemma assoc_insert_same {A} k (v : A) m : assoc k (assoc_insert k v m) = Some v.
Proof.
  induction m as [|[k' v'] r IH]; cbn; [now rewrite str_eqb_refl|].
  destruct (str_eqb k k') eqn:E; cbn; rewrite ?str_eqb_refl, ?E; auto.
Qed.
Lemma assoc_insert_other {A} k k0 (v : A) m :
  k0 <> k -> assoc k0 (assoc_insert k v m) = assoc k0 m.
Proof.
  intros Hne. induction m as [|[k' v'] r IH]; cbn.
  - apply str_eqb_neq in Hne. now rewrite Hne.
  - destruct (str_eqb_spec k k') as [->|E]; cbn.
    + apply str_eqb_neq in Hne. now rewrite Hne.
    + now rewrite IH.
Qed.
Lemma assoc_insert_keys {A} k (v : A) m k0 :
  In k0 (map fst (assoc_insert k v m)) <-> k0 = k \/ In k0 (map fst m).
Proof.
  induction m as [|[k' v'] r IH]; cbn; [intuition|].
  destruct (str_eqb_spec k k') as [->|E]; cbn; [intuition|]. rewrite IH. intuition.
Qed.
Lemma assoc_insert_nodup {A} k (v : A) m :
  NoDup (map fst m) -> NoDup (map fst (assoc_insert k v m)).
Proof.
  induction m as [|[k' v'] r IH]; cbn; intros H.
  - constructor; [intros []|constructor].
  - inversion H as [|? ? Hni Hnd]; subst.
    destruct (str_eqb_spec k k') as [->|E]; cbn; constructor; auto.
    rewrite assoc_insert_keys. intuition.
Qed.
Lemma assoc_In {A} k (v : A) m : assoc k m = Some v -> In (k, v) m.
Proof.
  induction m as [|[k' v'] r IH]; cbn; [discriminate|].
  destruct (str_eqb_spec k k') as [->|E]; intros H; [injection H as ->; auto|auto].
Qed.
Lemma In_assoc {A} k (v : A) m : NoDup (map fst m) -> In (k, v) m -> assoc k m = Some v.
Proof.
  induction m as [|[k' v'] r IH]; cbn; [tauto|].
  intros Hnd [Heq|Hin].
  - injection Heq as -> ->. now rewrite str_eqb_refl.
  - inversion Hnd as [|? ? Hni Hnd']; subst.
    destruct (str_eqb_spec k k') as [->|E]; [|auto].
    exfalso. apply Hni. now apply (in_map fst) in Hin.
Qed.
Lemma assoc_None {A} k (m : list (str * A)) : assoc k m = None <-> ~ In k (map fst m).
Proof.
  induction m as [|[k' v'] r IH]; cbn; [tauto|].
  destruct (str_eqb_spec k k') as [->|E].
  - split; [discriminate|]. intros H. exfalso. auto.
  - rewrite IH. intuition congruence.
Qed.
Lemma str_in_spec k l : str_in k l = true <-> In k l.
Proof.
  induction l as [|x r IH]; cbn; [split; [discriminate|tauto]|].
  rewrite orb_true_iff, IH, str_eqb_eq. intuition.
Qed.

Lemma nth_error_nil {A} i : nth_error (@nil A) i = None.
Proof. now destruct i. Qed.
Lemma nth_error_map_opt {A B} (f : A -> B) l i :
  nth_error (map f l) i = option_map f (nth_error l i).
Proof. revert i; induction l as [|x l IH]; intros [|i]; cbn; auto. Qed.
Lemma nth_error_extl {A} (a b : list A) : (forall i, nth_error a i = nth_error b i) -> a = b.
Proof.
  revert b; induction a as [|x a IH]; intros [|y b] H; auto.
  - specialize (H 0). discriminate.
  - specialize (H 0). discriminate.
  - f_equal; [specialize (H 0); cbn in H; congruence|]. apply IH. intros i. exact (H (S i)).
Qed.

(** ** Byte lengths and byte slicing *)
Lemma char_utf8_len_pos c : 1 <= char_utf8_len c.
Proof. unfold char_utf8_len. destruct (c <? 128)%N, (c <? 2048)%N, (c <? 65536)%N; lia. Qed.
Lemma utf8_len_cons c s : utf8_len (c :: s) = char_utf8_len c + utf8_len s.
Proof. reflexivity. Qed.
Lemma utf8_len_app a b : utf8_len (a ++ b) = utf8_len a + utf8_len b.
Proof. unfold utf8_len. rewrite map_app, list_sum_app. reflexivity. Qed.
Lemma utf8_len_ge s : length s <= utf8_len s.
Proof.
  induction s as [|c s IH]; [unfold utf8_len; simpl; lia|]. rewrite utf8_len_cons. simpl length.
  pose proof (char_utf8_len_pos c). lia.
Qed.
Lemma utf8_len_ascii s : forallb is_ascii s = true -> utf8_len s = length s.
Proof.
  induction s as [|c s IH]; [reflexivity|]. cbn [forallb]. intro H. apply andb_true_iff in H as [Hc Hs].
  rewrite utf8_len_cons, IH by assumption. unfold char_utf8_len. unfold is_ascii in Hc. rewrite Hc. reflexivity.
Qed.
Lemma byte_split_spec s : forall n a b, byte_split n s = Some (a, b) <-> s = a ++ b /\ utf8_len a = n.
Proof.
  induction s as [|c s IH]; intros n a b.
  - destruct n as [|n]; cbn [byte_split]; split.
    + intro H. inversion H; subst. auto.
    + intros [H _]. destruct a; [|discriminate]. simpl in H. subst. reflexivity.
    + discriminate.
    + intros [H E]. destruct a; discriminate.
  - destruct n as [|n]; cbn [byte_split].
    + split.
      * intro H. inversion H; subst. auto.
      * intros [H E]. destruct a as [|x a]; [simpl in H; subst; reflexivity|].
        rewrite utf8_len_cons in E. pose proof (char_utf8_len_pos x). lia.
    + destruct (Nat.ltb_spec (S n) (char_utf8_len c)) as [Hl|Hl].
      * split; [discriminate|]. intros [H E]. destruct a as [|x a]; [discriminate|]. inversion H; subst x.
        rewrite utf8_len_cons in E. lia.
      * destruct (byte_split (S n - char_utf8_len c) s) as [[x y]|] eqn:E.
        -- apply IH in E as [-> E]. split.
           ++ intro H. inversion H; subst. split; [reflexivity|]. rewrite utf8_len_cons. lia.
           ++ intros [H F]. destruct a as [|z a]; [discriminate|]. cbn [app] in H. inversion H; subst z.
              rewrite utf8_len_cons in F.
              assert (G : byte_split (S n - char_utf8_len c) (x ++ y) = Some (a, b)).
              { apply IH. split; [assumption|lia]. }
              assert (G2 : byte_split (S n - char_utf8_len c) (x ++ y) = Some (x, y)) by (apply IH; auto).
              rewrite G in G2. inversion G2. reflexivity.
        -- split; [discriminate|]. intros [H F]. destruct a as [|z a]; [discriminate|]. cbn [app] in H.
           inversion H; subst z s. rewrite utf8_len_cons in F.
           assert (G : byte_split (S n - char_utf8_len c) (a ++ b) = Some (a, b)) by (apply IH; split; [reflexivity|lia]).
           congruence.
Qed.
Lemma byte_split_app a b : byte_split (utf8_len a) (a ++ b) = Some (a, b).
Proof. apply byte_split_spec. auto. Qed.
