(* Common vocabulary of the model: Python exceptions as values, NumPy/Python indexing, small list
   utilities.  Nothing in this file models CommPy itself; it models the Python/NumPy primitives that
   every file of /repo/commpy uses. *)
From Coq Require Export List ZArith Lia Bool Arith.
From Coq Require Export ZifyBool ZifyNat.
Export ListNotations.
Global Open Scope Z_scope.

(* lia extended with Z.div / Z.modulo by constants *)
Ltac dlia := Z.div_mod_to_equations; lia.

(* Python exceptions that the modelled code can raise.  [OutOfFuel] is not a Python exception: it is
   the value returned when the fuel of a modelled while-loop is exhausted, i.e. "still running". *)
Inductive exn :=
| ValueError | IndexError | TypeError | ZeroDivisionError | AssertionError | NameError
| AttributeError | UnboundLocalError | FileExistsError | FileNotFoundError | KeyError | RuntimeError
| OverflowError | LinAlgError | OutOfFuel.

Inductive res (A : Type) := Ok (a : A) | Err (e : exn).
Arguments Ok {A} a.
Arguments Err {A} e.

Definition bind {A B} (x : res A) (f : A -> res B) : res B :=
  match x with Ok a => f a | Err e => Err e end.
Notation "x <- e ;; f" := (bind e (fun x => f)) (at level 61, e at next level, right associativity).

(* map with exceptions: the first exception wins (Python loop order). *)
Fixpoint mapM {A B} (f : A -> res B) (l : list A) : res (list B) :=
  match l with
  | [] => Ok []
  | a :: l' => b <- f a ;; bs <- mapM f l' ;; Ok (b :: bs)
  end.

Fixpoint foldM {A B} (f : B -> A -> res B) (l : list A) (b : B) : res B :=
  match l with
  | [] => Ok b
  | a :: l' => b' <- f b a ;; foldM f l' b'
  end.

(* Python index normalisation: 0 <= i < len, or -len <= i < 0 counted from the end. *)
Definition py_idx (len : nat) (i : Z) : option nat :=
  if (0 <=? i) && (i <? Z.of_nat len) then Some (Z.to_nat i)
  else if (- Z.of_nat len <=? i) && (i <? 0) then Some (Z.to_nat (i + Z.of_nat len))
  else None.

Definition py_get {A} (l : list A) (i : Z) : res A :=
  match py_idx (length l) i with
  | Some n => match nth_error l n with Some a => Ok a | None => Err IndexError end
  | None => Err IndexError
  end.

Fixpoint upd {A} (l : list A) (n : nat) (a : A) : list A :=
  match l, n with
  | [], _ => []
  | _ :: l', O => a :: l'
  | x :: l', S n' => x :: upd l' n' a
  end.

Definition py_set {A} (l : list A) (i : Z) (a : A) : res (list A) :=
  match py_idx (length l) i with
  | Some n => Ok (upd l n a)
  | None => Err IndexError
  end.

(* l[a:b] with 0 <= a, b (Python clips at the end of the array). *)
Definition slice {A} (l : list A) (a b : nat) : list A := firstn (b - a) (skipn a l).

Definition Zsum (l : list Z) : Z := fold_right Z.add 0 l.

Definition is_bit (x : Z) : Prop := x = 0 \/ x = 1.
Definition bits (l : list Z) : Prop := Forall is_bit l.
Definition is_bitb (x : Z) : bool := (x =? 0) || (x =? 1).

(* ------------------------------------------------------------------ lemmas *)
Lemma upd_length {A} (l : list A) n a : length (upd l n a) = length l.
Proof. revert n; induction l as [|x l IH]; intros [|n]; simpl; auto. Qed.

Lemma nth_upd {A} (l : list A) n a m d :
  nth m (upd l n a) d = if (m =? n)%nat && (n <? length l)%nat then a else nth m l d.
Proof.
  revert n m; induction l as [|x l IH]; intros n m; simpl.
  - rewrite andb_comm; simpl. destruct m; reflexivity.
  - destruct n as [|n]; destruct m as [|m]; simpl; try reflexivity.
    rewrite IH. reflexivity.
Qed.

Lemma nth_upd_eq {A} (l : list A) n a d : (n < length l)%nat -> nth n (upd l n a) d = a.
Proof. intros H. rewrite nth_upd, Nat.eqb_refl. apply Nat.ltb_lt in H. rewrite H. reflexivity. Qed.

Lemma nth_upd_neq {A} (l : list A) n a m d : m <> n -> nth m (upd l n a) d = nth m l d.
Proof. intros H. rewrite nth_upd. apply Nat.eqb_neq in H. rewrite H. reflexivity. Qed.

Lemma nth_ext_Z (l l' : list Z) :
  length l = length l' -> (forall i, (i < length l)%nat -> nth i l 0 = nth i l' 0) -> l = l'.
Proof. intros Hl H. apply (nth_ext l l' 0 0 Hl). exact H. Qed.

Lemma py_get_ok {A} (l : list A) (i : nat) (d : A) :
  (i < length l)%nat -> py_get l (Z.of_nat i) = Ok (nth i l d).
Proof.
  intros H. unfold py_get, py_idx.
  replace ((0 <=? Z.of_nat i) && (Z.of_nat i <? Z.of_nat (length l))) with true by lia.
  rewrite Nat2Z.id. rewrite (nth_error_nth' l d H). reflexivity.
Qed.

Lemma nth_repeat_lt {A} (a d : A) n i : (i < n)%nat -> nth i (repeat a n) d = a.
Proof. revert i; induction n as [|n IH]; intros [|i] H; simpl; try lia; auto. apply IH; lia. Qed.

Lemma nth_repeat_same {A} (a : A) n i : nth i (repeat a n) a = a.
Proof. revert i; induction n as [|n IH]; intros [|i]; simpl; auto. Qed.

Lemma bits_nth l i : bits l -> is_bit (nth i l 0).
Proof.
  intros H. destruct (Nat.lt_ge_cases i (length l)) as [Hi|Hi].
  - unfold bits in H. rewrite Forall_forall in H. apply H, nth_In, Hi.
  - rewrite nth_overflow by exact Hi. left; reflexivity.
Qed.

Lemma bits_repeat0 n : bits (repeat 0 n).
Proof. apply Forall_forall. intros x Hx. apply repeat_spec in Hx. left; exact Hx. Qed.

Lemma bits_app l l' : bits (l ++ l') <-> bits l /\ bits l'.
Proof. apply Forall_app. Qed.

Lemma bits_of_nth l : (forall i, (i < length l)%nat -> is_bit (nth i l 0)) -> bits l.
Proof.
  intros H. apply Forall_forall. intros x Hx.
  destruct (In_nth l x 0 Hx) as (i & Hi & Hn). rewrite <- Hn. apply H, Hi.
Qed.

Lemma is_bit_b2z b : is_bit (Z.b2z b).
Proof. destruct b; [right|left]; reflexivity. Qed.

Lemma is_bitb_spec x : is_bitb x = true <-> is_bit x.
Proof. unfold is_bitb, is_bit. lia. Qed.

Lemma Zsum_app l l' : Zsum (l ++ l') = Zsum l + Zsum l'.
Proof. unfold Zsum. induction l as [|x l IH]; cbn [app fold_right]; lia. Qed.

Lemma Zsum_cons x l : Zsum (x :: l) = x + Zsum l.
Proof. reflexivity. Qed.

Lemma Zsum_repeat0 n : Zsum (repeat 0 n) = 0.
Proof. induction n; cbn [repeat]; [reflexivity|]. rewrite Zsum_cons. lia. Qed.

Lemma mapM_Ok {A B} (f : A -> res B) (g : A -> B) l :
  (forall a, In a l -> f a = Ok (g a)) -> mapM f l = Ok (map g l).
Proof.
  induction l as [|a l IH]; intros H; [reflexivity|].
  simpl. rewrite (H a (or_introl eq_refl)). simpl.
  rewrite IH by (intros b Hb; apply H; right; exact Hb). reflexivity.
Qed.

Lemma skipn_nth {A} (l : list A) n i d : nth i (skipn n l) d = nth (n + i) l d.
Proof.
  revert l; induction n as [|n IH]; intros l; [reflexivity|].
  destruct l as [|x l]; simpl; [destruct i; reflexivity|]. apply IH.
Qed.

Lemma firstn_nth {A} (l : list A) n i d : (i < n)%nat -> nth i (firstn n l) d = nth i l d.
Proof.
  revert l i; induction n as [|n IH]; intros l i H; [lia|].
  destruct l as [|x l]; [reflexivity|]. destruct i as [|i]; [reflexivity|]. simpl. apply IH. lia.
Qed.

Lemma firstn_nth_ge {A} (l : list A) n i d : (n <= i)%nat -> nth i (firstn n l) d = d.
Proof. intros H. apply nth_overflow. rewrite firstn_length. lia. Qed.

Lemma slice_length {A} (l : list A) a b : (b <= length l)%nat -> length (slice l a b) = (b - a)%nat.
Proof. intros H. unfold slice. rewrite firstn_length, skipn_length. lia. Qed.

Lemma slice_nth {A} (l : list A) a b i d : (i < b - a)%nat -> nth i (slice l a b) d = nth (a + i) l d.
Proof. intros H. unfold slice. rewrite firstn_nth by exact H. apply skipn_nth. Qed.

Lemma nth_map_lt {A B} (f : A -> B) l i d d' :
  (i < length l)%nat -> nth i (map f l) d' = f (nth i l d).
Proof. intros H. rewrite (nth_indep _ d' (f d)) by (rewrite map_length; exact H). apply map_nth. Qed.

Lemma nth_map_seq {B} (f : nat -> B) n i d : (i < n)%nat -> nth i (map f (seq 0 n)) d = f i.
Proof.
  intros H. rewrite (nth_map_lt f _ _ 0%nat d) by (rewrite seq_length; exact H).
  rewrite seq_nth by exact H. reflexivity.
Qed.

Lemma map_seq_length {B} (f : nat -> B) a n : length (map f (seq a n)) = n.
Proof. rewrite map_length, seq_length. reflexivity. Qed.

(* ---- parity: x mod 2 as a ring morphism to booleans ---- *)
Lemma mod2_odd x : x mod 2 = Z.b2z (Z.odd x).
Proof. rewrite Zmod_odd. destruct (Z.odd x); reflexivity. Qed.

Lemma odd_mod2 x : Z.odd (x mod 2) = Z.odd x.
Proof. rewrite mod2_odd. destruct (Z.odd x); reflexivity. Qed.

Lemma odd_b2z b : Z.odd (Z.b2z b) = b.
Proof. destruct b; reflexivity. Qed.

Lemma bit_odd x : is_bit x -> x = Z.b2z (Z.odd x).
Proof. intros [-> | ->]; reflexivity. Qed.

Lemma is_bit_mod2 x : is_bit (x mod 2).
Proof. rewrite mod2_odd. apply is_bit_b2z. Qed.

(* proves goals x mod 2 = y mod 2 that are identities of polynomials over GF(2) *)
Ltac mod2_ring :=
  rewrite ?mod2_odd; f_equal;
  repeat (rewrite ?Z.odd_add, ?Z.odd_mul, ?Z.odd_sub, ?Z.odd_opp, ?odd_mod2, ?odd_b2z);
  repeat match goal with |- context [Z.odd ?x] => destruct (Z.odd x) end; reflexivity.
