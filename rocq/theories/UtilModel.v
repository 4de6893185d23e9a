(* Model of /repo/commpy/utilities.py. *)
From Verif Require Import Base.

(* utilities.py 78-86: the while loop of decimal2bitarray.  [i] and [pox] are the Python locals,
   [result] the np.int8 array.  Note result[bit_width - pox - 1]: a negative index wraps around. *)
Fixpoint d2b_loop (fuel : nat) (number w i pox : Z) (result : list Z) : res (list Z) :=
  match fuel with
  | O => Err OutOfFuel
  | S f =>
      if i <=? number then
        result' <- (if Z.land i number =? 0 then Ok result else py_set result (w - pox - 1) 1) ;;
        d2b_loop f number w (Z.shiftl i 1) (pox + 1) result'
      else Ok result
  end.

(* utilities.py 58-86 decimal2bitarray, without the lru_cache decorator (modelled in CacheModel.v).
   The fuel is the number of loop iterations plus one; [Proofs] show it is never exhausted.
   Simplification: bit_width is a natural number (np.zeros rejects negative sizes). *)
Definition decimal2bitarray (number : Z) (bit_width : nat) : res (list Z) :=
  d2b_loop (Z.to_nat (Z.log2 number) + 2) number (Z.of_nat bit_width) 1 0 (repeat 0 bit_width).

(* utilities.py 50-51 dec2bitarray on an int. *)
Definition dec2bitarray (number : Z) (bit_width : nat) : res (list Z) :=
  decimal2bitarray number bit_width.

(* utilities.py 52-55 dec2bitarray on an array-like.  Simplification: the slices
   result[pox*bit_width:(pox+1)*bit_width] tile the result array in order, so the loop is written as a
   concatenation; the first failing element raises, as in the Python loop. *)
Definition dec2bitarray_arr (numbers : list Z) (bit_width : nat) : res (list Z) :=
  l <- mapM (fun n => decimal2bitarray n bit_width) numbers ;; Ok (concat l).

(* utilities.py 104-109 bitarray2dec: number + in_bitarray[i] * pow(2, len - 1 - i), i ascending.
   Integers are unbounded (Python int / no int64 overflow). *)
Definition bitarray2dec (b : list Z) : Z :=
  fold_left (fun number i => number + nth i b 0 * 2 ^ (Z.of_nat (length b) - 1 - Z.of_nat i))
            (seq 0 (length b)) 0.

(* NumPy broadcasting of two 1-D operands: equal lengths, or one of length 1. *)
Definition np_broadcast2 {A B} (a : list A) (b : list B) : res (list (A * B)) :=
  if (length a =? length b)%nat then Ok (combine a b)
  else match a, b with
       | [x], _ => Ok (map (fun y => (x, y)) b)
       | _, [y] => Ok (map (fun x => (x, y)) a)
       | _, _ => Err ValueError
       end.

(* utilities.py 130-132 hamming_dist *)
Definition hamming_dist (a b : list Z) : res Z :=
  l <- np_broadcast2 a b ;; Ok (Zsum (map (fun xy => Z.lxor (fst xy) (snd xy)) l)).

(* utilities.py 176-182 upsample.  [zero] is the complex 0.  y = np.empty(len(x)*n): the cells are
   None until written.  y[0::n] = x writes x[q] at q*n; y[i::n] = zeros for i in range(1, n). A step
   n = 0 raises ValueError ("slice step cannot be zero"). *)
Definition strided_write {A} (y : list (option A)) (start step : nat) (vals : list A) : list (option A) :=
  fold_left (fun y qv => upd y (start + fst qv * step) (Some (snd qv)))
            (combine (seq 0 (length vals)) vals) y.

Definition upsample {A} (zero : A) (x : list A) (n : nat) : res (list (option A)) :=
  if (n =? 0)%nat then Err ValueError else
  let y := repeat None (length x * n) in
  let y := strided_write y 0 n x in
  Ok (fold_left (fun y i => strided_write y i n (repeat zero (length x))) (seq 1 (n - 1)) y).
