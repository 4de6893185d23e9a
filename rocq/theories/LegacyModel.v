(* Model of the Trellis constructor with an integer feedback, /repo/commpy/channelcoding/convcode.py lines 117-193, for any
   number of inputs.  (TrellisModel.make_trellis_legacy is the same for one input, in closed form; LegacyGen.v proves it.) *)
From Verif Require Import Base UtilModel TrellisModel.

(* a slice bound against an axis of length n (Python: negative bounds count from the end, then clipping) *)
Definition py_bound (n : nat) (z : Z) : nat := Z.to_nat (if z <? 0 then Z.max 0 (z + Z.of_nat n) else Z.min z (Z.of_nat n)).
(* l[a:b] *)
Definition py_slice (l : list Z) (a b : Z) : list Z :=
  firstn (py_bound (length l) b - py_bound (length l) a) (skipn (py_bound (length l) a) l).
(* l[a:b] = v; NumPy reads an overlapping source before writing *)
Definition py_store (l : list Z) (a b : Z) (v : list Z) : res (list Z) :=
  let i := py_bound (length l) a in let n := (py_bound (length l) b - i)%nat in
  w <- (if (length v =? n)%nat then Ok v else match v with [x] => Ok (repeat x n) | _ => Err ValueError end) ;;
  Ok (firstn i l ++ w ++ skipn (i + n) l).
(* (a * b).sum() of two 1-D arrays *)
Definition np_dot (a b : list Z) : res Z := p <- np_broadcast2 a b ;; Ok (Zsum (map (fun xy => fst xy * snd xy) p)).

(* convcode.py 159-185, one round of "for l in range(self.k)": the state is outbits[r], shift_register,
   output_generator_array (the entries written so far) and feedback_array *)
Definition int_round (memory : list nat) (g_matrix : list (list Z)) (feedback : Z) (inp : list Z) (r : nat)
    (st : Z * list Z * list Z * Z) (l : nat) : res (Z * list Z * list Z * Z) :=
  let '(out, sr, gens, _) := st in
  mem <- py_get memory (Z.of_nat l) ;;
  row <- py_get g_matrix (Z.of_nat l) ;;
  p <- py_get row (Z.of_nat r) ;;
  gen <- dec2bitarray p (mem + 1) ;;
  out <- foldM (fun o i => c <- py_get sr (Z.of_nat (i + l)) ;; g <- py_get gen (Z.of_nat (i + 1)) ;; Ok ((o + c * g) mod 2)) (seq 0 mem) out ;;
  g0 <- py_get gen 0 ;;
  fbv <- dec2bitarray feedback (mem + 1) ;;
  u <- py_get inp (Z.of_nat l) ;;
  let m := Z.of_nat mem in
  if (l =? 0)%nat then
    fa <- np_dot (tl fbv) (py_slice sr 0 m) ;;                                      (* 172 *)
    sr <- py_store sr 1 m (py_slice sr 0 (m - 1)) ;;                                (* 173-174 *)
    sr <- py_set sr 0 ((u + fa) mod 2) ;;                                           (* 175-176 *)
    Ok (out, sr, gens ++ [g0], fa)
  else
    prev <- py_get memory (Z.of_nat l - 1) ;;
    let a := Z.of_nat l + Z.of_nat prev in
    fa <- np_dot fbv (py_slice sr (a - 1) (a + m - 1)) ;;                           (* 178-180 *)
    sr <- py_store sr a (a + m - 1) (py_slice sr (a - 1) (a + m - 2)) ;;            (* 181-182 *)
    sr <- py_set sr (a - 1) ((u + fa) mod 2) ;;                                     (* 183-184 *)
    Ok (out, sr, gens ++ [g0], fa).

(* convcode.py 150-190, one output r: outbits[r] and the shift register *)
Definition int_output (memory : list nat) (k : nat) (g_matrix : list (list Z)) (feedback : Z) (s u r : nat) : res (Z * list Z) :=
  sr <- dec2bitarray (Z.of_nat s) (sum_mem memory) ;;
  inp <- dec2bitarray (Z.of_nat u) k ;;
  st <- foldM (int_round memory g_matrix feedback inp r) (seq 0 k) (0, sr, [], 0) ;;
  let '(out, sr, gens, fa) := st in
  Ok ((out + Zsum (map (fun xy => fst xy * snd xy + fa) (combine inp gens)) mod 2) mod 2, sr).

(* convcode.py 143-193, one (current_state, current_input): the entries of the two tables.  The next state is the shift
   register left by the last output; without outputs it is unbound. *)
Definition int_entry (memory : list nat) (k n : nat) (g_matrix : list (list Z)) (feedback : Z) (s u : nat) : res (Z * Z) :=
  rs <- mapM (int_output memory k g_matrix feedback s u) (seq 0 n) ;;
  match rs with
  | [] => Err UnboundLocalError
  | _ => Ok (bitarray2dec (map fst rs), bitarray2dec (snd (last rs (0, []))))
  end.

(* convcode.py 117-193: the trellis and the caller's g_matrix afterwards.  [n] is the number of columns of g_matrix. *)
Definition make_trellis_int (memory : list nat) (n : nat) (g_matrix : list (list Z)) (feedback : Z) (rsc : bool) : res (Trellis * list (list Z)) :=
  let k := length g_matrix in
  g <- (if rsc then foldM (fun g i => row <- py_get g (Z.of_nat i) ;; row <- py_set row (Z.of_nat i) feedback ;; py_set g (Z.of_nat i) row) (seq 0 k) g_matrix   (* 135-137 *)
        else Ok g_matrix) ;;
  t <- mapM (fun s => mapM (fun u => int_entry memory k n g feedback s u) (seq 0 (2 ^ k))) (seq 0 (2 ^ sum_mem memory)) ;;
  Ok ({| tr_k := k; tr_n := n; tr_M := sum_mem memory; tr_next := map (map snd) t; tr_out := map (map fst) t; tr_rsc := rsc |}, g).
