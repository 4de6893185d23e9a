(* Vocabulary of the 802.11 theorems. *)
From Verif Require Import Base TrellisModel TrellisSpec.

(* the rate 1/2 code with memory 6 and the two generator numbers g0, g1 *)
Definition rate_half (g0 g1 : Z) (f : poly_format) : code := {| memory := [6%nat]; outs := 2; gens := [[g0; g1]]; fback := None; fmt := f |}.

(* position i is transmitted when the periodically repeated puncturing vector is 1 there (all positions, without one);
   [before i] counts the transmitted positions smaller than i *)
Definition sent (pv : option (list Z)) (i : nat) : bool := match pv with Some v => nth (i mod length v) v 0 =? 1 | None => true end.
Definition before (pv : option (list Z)) (i : nat) : nat := length (filter (sent pv) (seq 0 i)).

(* The modulation and coding schemes of 802.11 (VHT): bits per symbol and code rate, for MCS 0, 1, ..., 9.
   One or two bits per symbol: PSK; more: square QAM. *)
Definition vht_schemes : list (Z * (Z * Z)) :=
  [(1, (1, 2)); (2, (1, 2)); (2, (3, 4)); (4, (1, 2)); (4, (3, 4)); (6, (2, 3)); (6, (3, 4)); (6, (5, 6)); (8, (3, 4)); (8, (5, 6))].

(* The transmitted bits of one puncturing period of 802.11, for rate p/(p+1) (positions in A1 B1 A2 B2 A3 B3 ...):
   1/2: A1 B1;  2/3: A1 B1 A2;  3/4: A1 B1 A2 B3;  5/6: A1 B1 A2 B3 A4 B5 *)
Definition A_ (i : nat) : nat := 2 * (i - 1).
Definition B_ (i : nat) : nat := 2 * (i - 1) + 1.
Definition kept_bits (p : Z) : list nat :=
  if p =? 1 then [A_ 1; B_ 1] else if p =? 2 then [A_ 1; B_ 1; A_ 2] else if p =? 3 then [A_ 1; B_ 1; A_ 2; B_ 3] else [A_ 1; B_ 1; A_ 2; B_ 3; A_ 4; B_ 5].
