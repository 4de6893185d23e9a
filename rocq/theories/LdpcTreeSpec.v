(* Vocabulary of property C67: parity-check matrices whose graph is a tree, exact decoding by listing all codewords. *)
From Coq Require Import Reals Permutation.
From Verif Require Import Base TurboSpec LdpcModel LdpcSpec LdpcBPSpec.
Open Scope Z_scope.

Definition without (l : list nat) (x : nat) : list nat := filter (fun y => negb (y =? x)%nat) l.

Section Unroll.
  (* the variables of a check, the checks of a variable *)
  Variables (vars checks : nat -> list nat).
  (* everything met when walking from variable v away from check c, crossing at most t checks; a variable or check
     reached by several walks is listed several times *)
  Fixpoint vars_below (t c v : nat) : list nat :=
    v :: match t with O => [] | S t' => flat_map (fun c' => flat_map (vars_below t' c') (without (vars c') v)) (without (checks v) c) end.
  Fixpoint checks_below (t c v : nat) : list nat :=
    match t with O => [] | S t' => flat_map (fun c' => c' :: flat_map (checks_below t' c') (without (vars c') v)) (without (checks v) c) end.
  (* the same in all directions from v, crossing at most t + 1 checks *)
  Definition vars_from (t v : nat) : list nat := v :: flat_map (fun c => flat_map (vars_below t c) (without (vars c) v)) (checks v).
  Definition checks_from (t v : nat) : list nat := flat_map (fun c => c :: flat_map (checks_below t c) (without (vars c) v)) (checks v).
End Unroll.

(* the graph of H is a tree of depth at most t + 1: from every variable, walks without return that cross at most t + 1
   checks reach every variable and every check exactly once *)
Definition tree (H : arr2) (t : nat) : Prop :=
  forall v, (v < a_cols H)%nat ->
    Permutation (vars_from (vars_of H) (checks_of H) t v) (seq 0 (a_cols H)) /\
    Permutation (checks_from (vars_of H) (checks_of H) t v) (seq 0 (length (a_rows H))).

(* all codewords of H with bit b at position v *)
Definition codewords (H : arr2) (v : nat) (b : Z) : list (list Z) :=
  filter (fun x => forallb (fun i => sumto (a_cols H) (fun j => hij (a_rows H) i j * nth j x 0) mod 2 =? 0) (seq 0 (length (a_rows H))) && (nth v x 0 =? b))%bool
         (all_bits (a_cols H)).

(* cost of a word: the sum of the log-likelihood ratios at its ones, that is minus the logarithm of the likelihood of the
   word relative to the all-zero word *)
Fixpoint cost (ls : list R) (x : list Z) : R := match ls, x with l :: ls', b :: x' => (IZR b * l + cost ls' x')%R | _, _ => 0%R end.
Definition least_cost (ls : list R) (words : list (list Z)) (c : R) : Prop :=
  (exists x, In x words /\ cost ls x = c) /\ forall x, In x words -> (c <= cost ls x)%R.
