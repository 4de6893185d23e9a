(* Vocabulary of the convolutional code theorems: the shift-register encoder, stated with bits of
   integers only. *)
From Verif Require Import Base UtilModel TrellisModel.

(* sum over GF(2) of a list of bits *)
Definition xsum (l : list bool) : bool := fold_right xorb false l.

(* coefficient of D^d in the polynomial written p, in registers of at most W cells:
   'MSB' format: bit d of p; 'LSB'/'Matlab' format: bit W-1-d of p (the leading bit is D^0) *)
Definition pcoef (fmt : poly_format) (W : nat) (p : Z) (d : nat) : bool :=
  match fmt with
  | MSB => Z.testbit p (Z.of_nat d)
  | _ => (d <? W)%nat && Z.testbit p (Z.of_nat W - 1 - Z.of_nat d)
  end.

(* content of cell d of delay line c when the encoder is in state s and the input is u: cell 0 is the
   current input, cells 1 .. memory[c] are stored in s, line after line, most significant bit first *)
Definition cell (memory : list nat) (s u : Z) (c d : nat) : bool :=
  if (d =? 0)%nat then Z.testbit u (Z.of_nat (length memory) - 1 - Z.of_nat c)
  else Z.testbit s (Z.of_nat (sum_mem memory) - Z.of_nat (offset memory c) - Z.of_nat d).

(* a code: k = length memory delay lines, n output polynomials per line, feedback matrix or none *)
Record code := { memory : list nat; outs : nat; gens : list (list Z); fback : option (list (list Z)); fmt : poly_format }.
Definition kk (C : code) : nat := length (memory C).
Definition MM (C : code) : nat := sum_mem (memory C).
Definition WW (C : code) : nat := max_mem (memory C) + 1.
Definition mem (C : code) (c : nat) : nat := nth c (memory C) 0%nat.

(* coefficient of D^d of the generator from line i to output j, of the feedback from line i to line c;
   without a feedback matrix the new content of line c is its input *)
Definition gcoef (C : code) (i j d : nat) : bool := pcoef (fmt C) (WW C) (mat_get (gens C) i j) d.
Definition fcoef (C : code) (c i d : nat) : bool :=
  match fback C with
  | Some F => pcoef (fmt C) (WW C) (mat_get F c i) d
  | None => (c =? i)%nat && (d =? 0)%nat
  end.

(* the code can be given to Trellis, and every polynomial fits into its own delay line *)
Definition well_formed (C : code) : Prop :=
  memory C <> [] /\ length (gens C) = kk C /\ fmt C <> OtherFormat /\
  (forall i j, (i < kk C)%nat -> (j < outs C)%nat ->
     0 <= mat_get (gens C) i j < 2 ^ Z.of_nat (WW C) /\ forall d, (mem C i < d)%nat -> gcoef C i j d = false) /\
  (forall F, fback C = Some F -> forall c i, (c < kk C)%nat -> (i < kk C)%nat ->
     0 <= mat_get F c i < 2 ^ Z.of_nat (WW C) /\ forall d, (mem C i < d)%nat -> fcoef C c i d = false).

(* sum over the lines i and their cells d = 0 .. memory[i] *)
Definition line_sum (C : code) (f : nat -> nat -> bool) : bool :=
  xsum (map (fun i => xsum (map (fun d => f i d) (seq 0 (S (mem C i))))) (seq 0 (kk C))).

(* one clock cycle of the shift-register encoder: from state s with input u it emits the n-bit word o
   (output 0 is the most significant bit) and moves to s' *)
Definition encoder_step (C : code) (s u o s' : Z) : Prop :=
  0 <= o < 2 ^ Z.of_nat (outs C) /\ 0 <= s' < 2 ^ Z.of_nat (MM C) /\
  (forall j, (j < outs C)%nat ->
     Z.testbit o (Z.of_nat (outs C) - 1 - Z.of_nat j) = line_sum C (fun i d => cell (memory C) s u i d && gcoef C i j d)) /\
  (forall c d, (c < kk C)%nat -> (1 <= d <= mem C c)%nat ->
     cell (memory C) s' 0 c d =
       if (d =? 1)%nat then line_sum C (fun i e => cell (memory C) s u i e && fcoef C c i e)
       else cell (memory C) s u c (d - 1)).

(* Trellis(memory, gens, feedback, code_type, polynomial_format) with a matrix or no feedback *)
Definition trellis_of (garbage : regs) (C : code) (rsc : bool) : res Trellis :=
  make_trellis garbage (memory C) (outs C) (gens C) (fback C) rsc (fmt C).

(* t[s][u] *)
Definition entry (t : list (list Z)) (s u : Z) : Z := nth (Z.to_nat u) (nth (Z.to_nat s) t []) (-1).

(* the legacy constructor (integer feedback), rate 1/n: polynomials and state are written with the
   coefficient of D^0, resp. the newest cell, as the most significant bit *)
Definition lcoef (mem : nat) (p : Z) (d : nat) : bool := Z.testbit p (Z.of_nat mem - Z.of_nat d).
Definition lsum (mem : nat) (p s : Z) : bool := xsum (map (fun d => lcoef mem p d && lcoef mem s d) (seq 1 mem)).

(* the D^0 part of the feedback distinguishes all inputs *)
Definition input_injective (C : code) : Prop := forall u u', 0 <= u < 2 ^ Z.of_nat (kk C) -> 0 <= u' < 2 ^ Z.of_nat (kk C) ->
  (forall c, (c < kk C)%nat ->
     xsum (map (fun i => Z.testbit u (Z.of_nat (kk C) - 1 - Z.of_nat i) && fcoef C c i 0) (seq 0 (kk C))) =
     xsum (map (fun i => Z.testbit u' (Z.of_nat (kk C) - 1 - Z.of_nat i) && fcoef C c i 0) (seq 0 (kk C)))) -> u = u'.

(* the integers 0 .. 2^m - 1 *)
Definition zseq (m : nat) : list Z := map Z.of_nat (seq 0 (2 ^ m)).

(* entry-wise exclusive or *)
Definition xorl (a b : list Z) : list Z := map (fun p => Z.lxor (fst p) (snd p)) (combine a b).

(* position i survives the periodic puncturing pattern row *)
Definition keep (row : list Z) (i : nat) : bool := nth (i mod length row) row 0 =? 1.
(* the surviving entries of l, in order, followed by zeros up to the length of l *)
Definition punctured (row l : list Z) : list Z :=
  let kept := map (fun i => nth i l 0) (filter (keep row) (seq 0 (length l))) in
  kept ++ repeat 0 (length l - length kept).
