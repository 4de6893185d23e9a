(* Model of class Trellis (constructor) and conv_encode of /repo/commpy/channelcoding/convcode.py. *)
From Verif Require Import Base UtilModel.

(* ------------------------------------------------------------------ Trellis *)

(* The attributes of a Trellis that conv_encode, viterbi_decode and the turbo code use.
   tr_rsc: code_type == 'rsc' (the only value of code_type the code tests for). *)
Record Trellis := {
  tr_k : nat;                       (* k *)
  tr_n : nat;                       (* n *)
  tr_M : nat;                       (* total_memory *)
  tr_next : list (list Z);          (* next_state_table *)
  tr_out : list (list Z);           (* output_table *)
  tr_rsc : bool
}.
Definition number_states (tr : Trellis) : nat := 2 ^ tr_M tr.
Definition number_inputs (tr : Trellis) : nat := 2 ^ tr_k tr.

Inductive poly_format := MSB | LSB | OtherFormat.   (* 'MSB' | 'LSB' or 'Matlab' | anything else *)

(* value of an int8 cell that is assigned the integer z (wrap around) *)
Definition int8 (z : Z) : Z := (z + 128) mod 256 - 128.

(* M[i, j] of a 2-D integer array *)
Definition mat_get (m : list (list Z)) (i j : nat) : Z := nth j (nth i m []) 0.

(* memory.max(), memory.sum() *)
Definition max_mem (memory : list nat) : nat := fold_right Nat.max 0%nat memory.
Definition sum_mem (memory : list nat) : nat := fold_right Nat.add 0%nat memory.
(* the value of idx when the loop "for idx_mem, mem in enumerate(memory): ... idx += mem" reaches c *)
Definition offset (memory : list nat) (c : nat) : nat := sum_mem (firstn c memory).

(* convcode.py 211-215 / 218-222: dec2bitarray(p, W)[::bit_order]; the slice [-W-2:] is the whole array *)
Definition binary_view (fmt : poly_format) (W : nat) (p : Z) : res (list Z) :=
  v <- dec2bitarray p W ;; Ok (match fmt with MSB => rev v | _ => v end).

(* the array of all binary views of a matrix with [rows] rows and [cols] columns: view[i][j][d] is
   feedback_array[d, i, j] resp. g_matrix_array[d, i, j] *)
Definition poly_array (fmt : poly_format) (W rows cols : nat) (m : list (list Z)) : res (list (list (list Z))) :=
  mapM (fun i => mapM (fun j => binary_view fmt W (mat_get m i j)) (seq 0 cols)) (seq 0 rows).
Definition coef (a : list (list (list Z))) (d i j : nat) : Z := nth d (nth j (nth i a []) []) 0.

(* shift_regs: an int8 array with max_values_lign rows and k columns, as a function of (row, column) *)
Definition regs := nat -> nat -> Z.

(* convcode.py 233-240: row 0 is the input, rows 1 .. mem of column c are the part of the state that
   belongs to register c; the cells below keep their old content *)
Definition load_regs (memory : list nat) (inp csa : list Z) (sr : regs) : regs := fun r c =>
  if (r =? 0)%nat then nth c inp 0
  else if (r <=? nth c memory 0)%nat then nth (offset memory c + (r - 1)) csa 0
  else sr r c.

(* np.einsum over i (rows) and k (columns) of shift_regs[i, k] * co i k; int8 operands, so the sum
   wraps around in int8 *)
Definition einsum_ik (W k : nat) (sr : regs) (co : nat -> nat -> Z) : Z :=
  int8 (Zsum (map (fun i => Zsum (map (fun c => sr i c * co i c) (seq 0 k))) (seq 0 W))).

(* convcode.py 246-248: the first row becomes the feedback sums (einsum 'ik,ilk->l'; out=shift_regs[0] is
   computed from a copy: NumPy >= 1.13 copies overlapping operands), then everything is reduced mod 2 *)
Definition feedback_regs (W k : nat) (fb : list (list (list Z))) (sr : regs) : regs := fun r c =>
  (if (r =? 0)%nat then einsum_ik W k sr (fun i c' => coef fb i c c') else sr r c) mod 2.

(* convcode.py 250-254: current_state_array[idx:idx + mem] = shift_regs[:mem, idx_mem] *)
Definition flatten_regs (memory : list nat) (k : nat) (sr : regs) : list Z :=
  concat (map (fun c => map (fun r => sr r c) (seq 0 (nth c memory 0%nat))) (seq 0 k)).

(* convcode.py 231-255, the body of the double loop for one (current_state, current_input): returns
   the output_table entry, the next_state_table entry and the new content of shift_regs. *)
Definition trellis_entry (memory : list nat) (k n W : nat) (fb g : list (list (list Z))) (sr : regs)
    (current_state current_input : nat) : res (Z * Z * regs) :=
  csa <- dec2bitarray (Z.of_nat current_state) (sum_mem memory) ;;
  inp <- dec2bitarray (Z.of_nat current_input) k ;;
  let sr1 := load_regs memory inp csa sr in
  let outputs_array := map (fun l => einsum_ik W k sr1 (fun i c => coef g i c l) mod 2) (seq 0 n) in
  let sr2 := feedback_regs W k fb sr1 in
  Ok (bitarray2dec outputs_array, bitarray2dec (flatten_regs memory k sr2), sr2).

(* convcode.py 229-255: the two loops, threading shift_regs; one row of the tables per state *)
Fixpoint trellis_row (entry : regs -> nat -> res (Z * Z * regs)) (sr : regs) (inputs : list nat)
    : res (list Z * list Z * regs) :=
  match inputs with
  | [] => Ok ([], [], sr)
  | u :: us =>
      e <- entry sr u ;; let '(o, nx, sr1) := e in
      rest <- trellis_row entry sr1 us ;; let '(os, nxs, sr2) := rest in
      Ok (o :: os, nx :: nxs, sr2)
  end.
Fixpoint trellis_rows (row : regs -> nat -> res (list Z * list Z * regs)) (sr : regs) (states : list nat)
    : res (list (list Z) * list (list Z)) :=
  match states with
  | [] => Ok ([], [])
  | s :: ss =>
      e <- row sr s ;; let '(o, nx, sr1) := e in
      rest <- trellis_rows row sr1 ss ;; let '(os, nxs) := rest in
      Ok (o :: os, nx :: nxs)
  end.

(* convcode.py 117-128, 195-255: Trellis(memory, g_matrix, feedback, code_type, polynomial_format) when
   feedback is a matrix or None.  [n] is the number of columns of g_matrix.  [garbage] is the content of
   the np.empty array shift_regs. *)
Definition default_feedback (fmt : poly_format) (k mx : nat) : list (list Z) :=
  map (fun i => map (fun j => (if (i =? j)%nat then 1 else 0) * match fmt with MSB => 1 | _ => 2 ^ Z.of_nat mx end) (seq 0 k)) (seq 0 k).

Definition make_trellis (garbage : regs) (memory : list nat) (n : nat) (g_matrix : list (list Z))
    (feedback : option (list (list Z))) (rsc : bool) (fmt : poly_format) : res Trellis :=
  let k := length g_matrix in
  let W := (max_mem memory + 1)%nat in
  match fmt with OtherFormat => Err ValueError | _ =>
    fb <- poly_array fmt W k k (match feedback with Some f => f | None => default_feedback fmt k (max_mem memory) end) ;;
    g <- poly_array fmt W k n g_matrix ;;
    t <- trellis_rows (fun sr s => trellis_row (fun sr u => trellis_entry memory k n W fb g sr s u) sr (seq 0 (2 ^ k)))
                      garbage (seq 0 (2 ^ sum_mem memory)) ;;
    let '(outs, nexts) := t in
    Ok {| tr_k := k; tr_n := n; tr_M := sum_mem memory; tr_next := nexts; tr_out := outs; tr_rsc := rsc |}
  end.

(* ------------------------------------------------------------------ the legacy constructor, k = 1 *)

(* ------------------------------------------------------------------ binary64 arithmetic *)

(* The binary64 number nearest to the positive rational a/b (ties to even), as (m, e) for m * 2^e with
   2^52 <= m <= 2^53.  Overflow and subnormals are not modelled (all quotients here are between
   2^-60 and 2^60). *)
Definition rnd64_exp (a b : Z) : Z :=
  let e0 := Z.log2 a - Z.log2 b in
  (if b * 2 ^ Z.max e0 0 <=? a * 2 ^ Z.max (- e0) 0 then e0 else e0 - 1) - 52.
Definition round_half_even (num den : Z) : Z :=
  let q := num / den in let r := num mod den in
  if 2 * r <? den then q else if den <? 2 * r then q + 1 else if Z.even q then q else q + 1.
Definition rnd64 (a b : Z) : Z * Z :=
  let e := rnd64_exp a b in
  (round_half_even (a * 2 ^ Z.max (- e) 0) (b * 2 ^ Z.max e 0), e).
(* int(f) for f = m * 2^e >= 0 *)
Definition int_of_float (f : Z * Z) : Z := let '(m, e) := f in (m * 2 ^ Z.max e 0) / 2 ^ Z.max (- e) 0.

(* int(x / rate) with rate = float(k)/n *)
Definition int_div_rate (x : Z) (k n : nat) : Z :=
  let '(m, e) := rnd64 (Z.of_nat k) (Z.of_nat n) in
  if x <=? 0 then 0 else int_of_float (rnd64 (x * 2 ^ Z.max (- e) 0) (m * 2 ^ Z.max e 0)).
(* int(x * rate) with rate = k/n *)
Definition int_mul_rate (x : Z) (k n : nat) : Z :=
  let '(m, e) := rnd64 (Z.of_nat k) (Z.of_nat n) in
  if x <=? 0 then 0 else int_of_float (rnd64 (x * m * 2 ^ Z.max e 0) (2 ^ Z.max (- e) 0)).

(* ------------------------------------------------------------------ conv_encode *)

(* a[lo:hi] = vals for 1-D arrays: the slice is clipped to the array; lengths must agree, except that
   a single value is broadcast *)
Definition slice_assign {A} (l : list A) (lo hi : nat) (vals : list A) : res (list A) :=
  let hi := Nat.min hi (length l) in
  let len := (hi - lo)%nat in
  let write vs := firstn lo l ++ vs ++ skipn (lo + len) l in
  if (len =? length vals)%nat then Ok (write vals)
  else match vals with
       | [v] => Ok (write (repeat v len))
       | _ => Err ValueError
       end.

Definition table_get (t : list (list Z)) (s u : Z) : res Z := row <- py_get t s ;; py_get row u.

(* convcode.py 536-540 (and 546-550): one clock cycle; the state is (outbits, current_state, j) *)
Definition enc_step (tr : Trellis) (st : list Z * Z * nat) (input : list Z) : res (list Z * Z * nat) :=
  let '(outbits, current_state, j) := st in
  let current_input := bitarray2dec input in
  current_output <- table_get (tr_out tr) current_state current_input ;;
  word <- dec2bitarray current_output (tr_n tr) ;;
  outbits' <- slice_assign outbits (j * tr_n tr) ((j + 1) * tr_n tr) word ;;
  current_state' <- table_get (tr_next tr) current_state current_input ;;
  Ok (outbits', current_state', (j + 1)%nat).

Inductive termination := Cont | Term | OtherTermination.  (* 'cont' | 'term' | any other string *)

(* convcode.py 552-556: the puncturing loop; [row] is puncture_matrix[0]; without columns i % 0 is raised *)
Fixpoint punct_loop (row : list Z) (outbits : list Z) (idx : list nat) (p_outbits : list Z) (j : nat) : res (list Z) :=
  match idx with
  | [] => Ok p_outbits
  | i :: idx' =>
      if (length row =? 0)%nat then Err ZeroDivisionError
      else if nth (i mod length row) row 0 =? 1
      then p <- py_set p_outbits (Z.of_nat j) (nth i outbits 0) ;; punct_loop row outbits idx' p (j + 1)
      else punct_loop row outbits idx' p_outbits j
  end.

(* convcode.py 475-558 conv_encode.  [puncture] is row 0 of puncture_matrix (the only row read), None
   for the default.  The encoder's final state is returned as well, for the termination theorems (the
   Python function discards it).  int(number_inbits/k) is the integer quotient (exact below 2^52). *)
Definition conv_encode_st (message_bits : list Z) (tr : Trellis) (term : termination) (puncture : option (list Z))
    : res (list Z * Z) :=
  let k := tr_k tr in let n := tr_n tr in let M := tr_M tr in
  let row := match puncture with Some r => r | None => repeat 1 n end in
  let number_message_bits := length message_bits in
  let '(inbits, number_inbits, number_outbits) :=
    match term with
    | Cont => (message_bits, number_message_bits, int_div_rate (Z.of_nat number_message_bits) k n)
    | _ => if tr_rsc tr
           then (message_bits, number_message_bits, int_div_rate (Z.of_nat (number_message_bits + k * M)) k n)
           else let nb := (number_message_bits + M + M mod k)%nat in
                (message_bits ++ repeat 0 (M + M mod k), nb, int_div_rate (Z.of_nat nb) k n)
    end in
  let outbits := repeat 0 (Z.to_nat number_outbits) in
  let p_outbits := repeat 0 (Z.to_nat number_outbits) in
  st <- foldM (fun st i => enc_step tr st (slice inbits (i * k) ((i + 1) * k))) (seq 0 (number_inbits / k)) (outbits, 0, 0%nat) ;;
  st <- (match tr_rsc tr, term with
         | true, Term =>
             let '(_, current_state, _) := st in
             term_bits <- dec2bitarray current_state M ;;
             foldM (fun st i => enc_step tr st (slice (rev term_bits) (i * k) ((i + 1) * k))) (seq 0 M) st
         | _, _ => Ok st
         end) ;;
  let '(outbits, current_state, _) := st in
  p <- punct_loop row outbits (seq 0 (Z.to_nat number_outbits)) p_outbits 0 ;;
  Ok (p, current_state).

Definition conv_encode (message_bits : list Z) (tr : Trellis) (term : termination) (puncture : option (list Z)) : res (list Z) :=
  r <- conv_encode_st message_bits tr term puncture ;; Ok (fst r).
