(* Model of /repo/commpy/sequences.py (pnsequence) and /repo/commpy/channelcoding/interleavers.py. *)
From Verif Require Import Base.

(* sequences.py 70-72: new_bit = sum(sr & mask) % 2; sr[1:] = sr[:-1]; sr[0] = new_bit.
   NumPy copies correctly on overlapping slices.  sr and mask have the same length. *)
Definition lfsr_step (mask sr : list Z) : list Z :=
  (Zsum (map (fun xy => Z.land (fst xy) (snd xy)) (combine sr mask)) mod 2) :: removelast sr.

(* sequences.py 68-72: the output loop; pnseq[i] = sr[-1] *)
Fixpoint pn_loop (mask sr : list Z) (n : nat) : res (list Z) :=
  match n with
  | O => Ok []
  | S n' => b <- py_get sr (-1) ;; l <- pn_loop mask (lfsr_step mask sr) n' ;; Ok (b :: l)
  end.

(* sequences.py 21-74 pnsequence.  The iterables are given as lists of integers; sr[-1] on an empty
   register (pn_order = 0) raises IndexError. *)
Definition pnsequence (pn_order : nat) (pn_seed pn_mask : list Z) (seq_length : nat) : res (list Z) :=
  if negb (length pn_seed =? pn_order)%nat then Err ValueError
  else if negb (length pn_mask =? pn_order)%nat then Err ValueError
  else pn_loop pn_mask pn_seed seq_length.

(* interleavers.py 27: in_array[self.p_array] (fancy indexing: IndexError when an index is out of range) *)
Definition interlv {A} (p_array : list nat) (in_array : list A) : res (list A) :=
  mapM (fun p => match nth_error in_array p with Some a => Ok a | None => Err IndexError end) p_array.

(* interleavers.py 44-47 *)
Definition deinterlv {A} (zero : A) (p_array : list nat) (in_array : list A) : res (list A) :=
  foldM (fun out ie => let '(index, element) := ie in
           match nth_error in_array index with
           | None => Err IndexError
           | Some a => if (element <? length out)%nat then Ok (upd out element a) else Err IndexError
           end)
        (combine (seq 0 (length p_array)) p_array) (repeat zero (length in_array)).

(* interleavers.py 75-77: RandomState.permutation(arange(length)) returns some permutation of
   0..length-1; which one (Mersenne Twister) is not modelled.  [is_perm] is what is assumed of it. *)
Definition is_perm (length : nat) (p_array : list nat) : Prop :=
  List.length p_array = length /\ NoDup p_array /\ (forall p, In p p_array -> (p < length)%nat).
