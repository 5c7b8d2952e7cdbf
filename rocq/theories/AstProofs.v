(** * AstProofs: induction over syntax trees, decimal numerals, A1 names. *)
From Verif Require Import Base BaseProofs Csvp Ast.

(** Induction that reaches into argument lists and variable values. *)
Section NodeInd.
  Variable P : node -> Prop.
  Hypothesis Hbool : forall b, P (NBool b).
  Hypothesis Hdate : forall t, P (NDate t).
  Hypothesis Hfloat : forall p s v, P (NFloat p s v).
  Hypothesis Hfn : forall a b n, P b -> P (NFn a b n).
  Hypothesis Hcall : forall a n, Forall P a -> P (NCall a n).
  Hypothesis Hinfix : forall l o r, P l -> P r -> P (NInfix l o r).
  Hypothesis Hint : forall p s v, P (NInt p s v).
  Hypothesis Href : forall r, P (NRef r).
  Hypothesis Htext : forall t, P (NText t).
  Hypothesis Hvar : forall n v, (forall a, v = VAst a -> P a) -> P (NVar n v).
  Fixpoint node_induction (n : node) : P n :=
    match n with
    | NBool b => Hbool b
    | NDate t => Hdate t
    | NFloat p s v => Hfloat p s v
    | NFn a b n => Hfn a b n (node_induction b)
    | NCall a n => Hcall a n
        ((fix go l : Forall P l := match l with
          | [] => Forall_nil P
          | x :: r => Forall_cons x (node_induction x) (go r)
          end) a)
    | NInfix l o r => Hinfix l o r (node_induction l) (node_induction r)
    | NInt p s v => Hint p s v
    | NRef r => Href r
    | NText t => Htext t
    | NVar n v => Hvar n v
        (match v with
         | VAst a => fun a' (e : VAst a = VAst a') =>
             match e in _ = y return match y with VAst a'' => P a'' | _ => True end with
             | eq_refl => node_induction a
             end
         | _ => fun a' e => match e in _ = y return match y with VAst a'' => P a'' | _ => True end with
                            | eq_refl => I end
         end)
    end.
End NodeInd.

(** ** Decimal numerals *)
Lemma digits_value_app a b acc :
  fold_left (fun acc c => acc * 10 + (c - 48))%N (a ++ b) acc
  = fold_left (fun acc c => acc * 10 + (c - 48))%N b (fold_left (fun acc c => acc * 10 + (c - 48))%N a acc).
Proof. apply fold_left_app. Qed.

Lemma uint_str_digits d : forallb is_ascii_digit (uint_str d) = true.
Proof. induction d; simpl; auto. Qed.

Require Import DecimalN DecimalNat DecimalFacts DecimalPos.

Lemma uint_str_value_pos : forall d acc,
  fold_left (fun acc c => acc * 10 + (c - 48))%N (uint_str d) (Npos acc)
  = Npos (Pos.of_uint_acc d acc).
Proof.
  induction d; intros acc; simpl uint_str; simpl fold_left; [reflexivity|..];
  cbn [Pos.of_uint_acc]; rewrite <- IHd; f_equal; try lia.
  all: rewrite ?N.sub_diag; try lia.
Qed.

Lemma uint_str_value d :
  fold_left (fun acc c => acc * 10 + (c - 48))%N (uint_str d) 0%N = N.of_uint d.
Proof.
  unfold N.of_uint. induction d; cbn [uint_str fold_left Pos.of_uint]; try reflexivity; try exact IHd.
  all: rewrite <- uint_str_value_pos; f_equal; reflexivity.
Qed.

Lemma dec_value n : digits_value (dec n) = n.
Proof. unfold digits_value, dec. rewrite uint_str_value. apply DecimalN.Unsigned.of_to. Qed.

Lemma dec_digits n : forallb is_ascii_digit (dec n) = true.
Proof. apply uint_str_digits. Qed.

Lemma dec_nonempty n : dec n <> [].
Proof.
  unfold dec. destruct n as [|p]; [discriminate|]. intro H.
  assert (N.to_uint (Npos p) <> Decimal.Nil).
  { simpl. apply DecimalPos.Unsigned.to_uint_nonnil. }
  destruct (N.to_uint (Npos p)); simpl in H; congruence.
Qed.

Lemma dec_all_digits n : all_digits (dec n) = true.
Proof.
  unfold all_digits. pose proof (dec_nonempty n). pose proof (dec_digits n).
  destruct (dec n); [congruence|assumption].
Qed.

Lemma dec_inj a b : dec a = dec b -> a = b.
Proof. intro H. rewrite <- (dec_value a), <- (dec_value b), H. reflexivity. Qed.
