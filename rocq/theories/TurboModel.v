(* Model of /repo/commpy/channelcoding/turbo.py.  Floating point numbers are real numbers (no rounding, no
   underflow); noise_variance is positive (a zero variance is a division by zero). *)
From Coq Require Import Reals.
From Verif Require Import Base UtilModel TrellisModel SeqModel.

(* l[off::2] *)
Definition every_second {A} (d : A) (off : nat) (l : list A) : list A :=
  map (fun i => nth (2 * i + off) l d) (seq 0 ((length l + 1 - off) / 2)).
(* l[0:-m] (for m = 0 this is l[0:0], the empty array) *)
Definition but_last {A} (m : nat) (l : list A) : list A := if (m =? 0)%nat then [] else firstn (length l - m) l.

(* turbo.py 14-59 turbo_encode; p_array is the permutation of the interleaver object *)
Definition turbo_encode (msg_bits : list Z) (trellis1 trellis2 : Trellis) (p_array : list nat)
    : res (list Z * list Z * list Z) :=
  stream <- conv_encode msg_bits trellis1 OtherTermination None ;;
  let sys_stream := every_second 0 0 stream in
  let non_sys_stream_1 := every_second 0 1 stream in
  interlv_msg_bits <- interlv p_array sys_stream ;;
  non_sys_stream_2 <- conv_encode interlv_msg_bits trellis2 OtherTermination (Some [0; 1]) ;;
  Ok (but_last (tr_M trellis1) sys_stream, but_last (tr_M trellis1) non_sys_stream_1, but_last (tr_M trellis2) non_sys_stream_2).

(* turbo.py 62-76 _compute_branch_prob *)
Definition branch_prob (code_bit_0 code_bit_1 : Z) (rx_symbol_0 rx_symbol_1 noise_variance : R) : R :=
  let x := (rx_symbol_0 - IZR (2 * code_bit_0 - 1))%R in
  let y := (rx_symbol_1 - IZR (2 * code_bit_1 - 1))%R in
  exp (- (x * x + y * y) / (2 * noise_variance)).

Definition Rsum (l : list R) : R := fold_right Rplus 0%R l.

(* the double loop over (current_state, current_input) *)
Definition branches (tr : Trellis) : list (nat * nat) := list_prod (seq 0 (number_states tr)) (seq 0 (number_inputs tr)).

(* turbo.py 92-108, the body of the loop over reverse_time_index = t + 1.  Column t of b_state_metrics is
   zero before this iteration and written only here; the result is that column (before the normalisation)
   and branch_probs[:, :, t] as a list of (input, state) values in loop order.  [bnext] is column t + 1. *)
Definition backward_column (tr : Trellis) (noise_variance : R) (sys_symbols non_sys_symbols : list R)
    (priors : list (list R)) (t : nat) (bnext : list R) : res (list R * list R) :=
  foldM (fun st su =>
    let '(col, probs) := st in
    let '(current_state, current_input) := su in
    next_state <- table_get (tr_next tr) (Z.of_nat current_state) (Z.of_nat current_input) ;;
    code_symbol <- table_get (tr_out tr) (Z.of_nat current_state) (Z.of_nat current_input) ;;
    codeword_array <- dec2bitarray code_symbol (tr_n tr) ;;
    parity_bit <- py_get codeword_array 1 ;;
    msg_bit <- py_get codeword_array 0 ;;
    rx_symbol_0 <- py_get sys_symbols (Z.of_nat t) ;;
    rx_symbol_1 <- py_get non_sys_symbols (Z.of_nat t) ;;
    let bp := branch_prob msg_bit parity_bit rx_symbol_0 rx_symbol_1 noise_variance in
    b <- py_get bnext next_state ;;
    prow <- py_get priors (Z.of_nat current_input) ;;
    prior <- py_get prow (Z.of_nat t) ;;
    old <- py_get col (Z.of_nat current_state) ;;
    col' <- py_set col (Z.of_nat current_state) (old + b * bp * prior)%R ;;
    Ok (col', probs ++ [bp])) (branches tr) (repeat 0%R (number_states tr), []).

(* turbo.py 110-111: divide by the sum *)
Definition normalise (col : list R) : list R := map (fun x => (x / Rsum col)%R) col.

(* turbo.py 78-111 _backward_recursion for times t .. msg_length - 1, [k] of them: the columns t .. msg_length
   of b_state_metrics and the branch probabilities of times t .. msg_length - 1 *)
Fixpoint backward_recursion (tr : Trellis) (noise_variance : R) (sys_symbols non_sys_symbols : list R)
    (priors : list (list R)) (t k : nat) : res (list (list R) * list (list R)) :=
  match k with
  | O => Ok ([repeat 1%R (number_states tr)], [])
  | S k' =>
      rest <- backward_recursion tr noise_variance sys_symbols non_sys_symbols priors (S t) k' ;;
      let '(cols, probs) := rest in
      e <- backward_column tr noise_variance sys_symbols non_sys_symbols priors t (hd [] cols) ;;
      Ok (normalise (fst e) :: cols, snd e :: probs)
  end.

(* turbo.py 130-143: the double loop of the forward recursion at time t; state: column 1 of
   f_state_metrics (zero at the start) and app *)
Definition forward_column (tr : Trellis) (priors : list (list R)) (t : nat) (f0 bnext bps : list R) : res (list R * list R) :=
  foldM (fun st isu =>
    let '(f1, app) := st in
    let '(i, (current_state, current_input)) := isu in
    next_state <- table_get (tr_next tr) (Z.of_nat current_state) (Z.of_nat current_input) ;;
    bp <- py_get bps (Z.of_nat i) ;;
    f <- py_get f0 (Z.of_nat current_state) ;;
    prow <- py_get priors (Z.of_nat current_input) ;;
    prior <- py_get prow (Z.of_nat t) ;;
    old <- py_get f1 next_state ;;
    f1' <- py_set f1 next_state (old + f * bp * prior)%R ;;
    b <- py_get bnext next_state ;;
    olda <- py_get app (Z.of_nat current_input) ;;
    app' <- py_set app (Z.of_nat current_input) (olda + f * bp * b)%R ;;
    Ok (f1', app')) (combine (seq 0 (length (branches tr))) (branches tr))
    (repeat 0%R (number_states tr), repeat 0%R (number_inputs tr)).

(* turbo.py 114-158 _forward_recursion_decoding: state (column 0 of f_state_metrics, L_ext, decoded_bits) *)
Definition forward_step (tr : Trellis) (decode : bool) (L_int : list R) (priors cols probs : list (list R))
    (st : list R * list R * list Z) (t : nat) : res (list R * list R * list Z) :=
  let '(f0, L_ext, decoded_bits) := st in
  bnext <- py_get cols (Z.of_nat (t + 1)) ;;
  bps <- py_get probs (Z.of_nat t) ;;
  e <- forward_column tr priors t f0 bnext bps ;;
  let '(f1, app) := e in
  l <- py_get L_int (Z.of_nat t) ;;
  app1 <- py_get app 1 ;;
  app0 <- py_get app 0 ;;
  let lappr := (l + ln (app1 / app0))%R in
  L_ext' <- py_set L_ext (Z.of_nat t) lappr ;;
  decoded' <- (if decode then py_set decoded_bits (Z.of_nat t) (if Rlt_dec 0 lappr then 1 else 0) else Ok decoded_bits) ;;
  Ok (normalise f1, L_ext', decoded').

(* priors[i, :] = v where v has the length of L_int: an array of one entry is broadcast *)
Definition broadcast (n : nat) (l : list R) : res (list R) :=
  if (length l =? n)%nat then Ok l else match l with [x] => Ok (repeat x n) | _ => Err ValueError end.

(* turbo.py 163-251 map_decode; decode: mode == 'decode' *)
Definition map_decode (sys_symbols non_sys_symbols : list R) (tr : Trellis) (noise_variance : R) (L_int : list R) (decode : bool)
    : res (list R * list Z) :=
  let msg_length := length sys_symbols in
  p0 <- broadcast msg_length (map (fun l => (1 / (1 + exp l))%R) L_int) ;;
  let priors := [p0; map (fun p => (1 - p)%R) p0] in
  bw <- backward_recursion tr noise_variance sys_symbols non_sys_symbols priors 0 msg_length ;;
  let '(cols, probs) := bw in
  st <- foldM (forward_step tr decode L_int priors cols probs) (seq 0 msg_length)
          (upd (repeat 0%R (number_states tr)) 0 1%R, repeat 0%R msg_length, repeat 0 msg_length) ;;
  let '(_, L_ext, decoded_bits) := st in Ok (L_ext, decoded_bits).

Definition minus (a b : list R) : list R := map (fun p => (fst p - snd p)%R) (combine a b).

(* turbo.py 312-329: one iteration; state (L_int_1, decoded_bits) *)
Definition turbo_iteration (sys sys_i par1 par2 : list R) (tr : Trellis) (noise_variance : R) (number_iterations : nat) (p_array : list nat)
    (st : list R * option (list Z)) (iteration_count : nat) : res (list R * option (list Z)) :=
  let '(L_int_1, _) := st in
  e1 <- map_decode sys par1 tr noise_variance L_int_1 false ;;
  L_int_2 <- interlv p_array (minus (fst e1) L_int_1) ;;
  let decode := (iteration_count =? number_iterations - 1)%nat in
  e2 <- map_decode sys_i par2 tr noise_variance L_int_2 decode ;;
  L_int_1' <- deinterlv 0%R p_array (minus (fst e2) L_int_2) ;;
  Ok (L_int_1', Some (snd e2)).

(* turbo.py 254-333 turbo_decode; decoded_bits is unbound when there is no iteration.  The subtractions
   L_ext_1 - L_int_1 have operands of equal length (map_decode has succeeded). *)
Definition turbo_decode (sys par1 par2 : list R) (tr : Trellis) (noise_variance : R) (number_iterations : nat) (p_array : list nat)
    (L_int : option (list R)) : res (list Z) :=
  let L0 := match L_int with Some l => l | None => repeat 0%R (length sys) end in
  sys_i <- interlv p_array sys ;;
  st <- foldM (turbo_iteration sys sys_i par1 par2 tr noise_variance number_iterations p_array) (seq 0 number_iterations) (L0, None) ;;
  match snd st with
  | None => Err UnboundLocalError
  | Some decoded_bits => deinterlv 0 p_array decoded_bits
  end.
