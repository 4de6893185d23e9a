(* Model of ofdm_tx and ofdm_rx, /repo/commpy/modulation.py lines 265-296.  Samples are exact complex numbers.

   Both functions use floats as array sizes and slice bounds.  What that means depends on NumPy: releases from 1.12 on raise
   TypeError, the older ones that the project also admits (requirements.txt: numpy>=1.9.2) truncate with a warning.  The
   rule is a parameter of the model. *)
From Coq Require Import QArith.
From Verif Require Import Base Cplx.
Open Scope Z_scope.

(* ---------------------------------------------------------------- Python / NumPy *)
Inductive numpy_rules := Strict (* NumPy >= 1.12 *) | Truncating (* NumPy 1.9 - 1.11 *).
(* an int or a float (floats as exact rationals: only multiples of 1/2 occur) *)
Inductive pynum := PyInt (z : Z) | PyFloat (q : Q).
(* a number used as a size or as a slice bound; int(float) truncates towards 0 *)
Definition as_index (r : numpy_rules) (x : pynum) : res Z :=
  match x, r with
  | PyInt z, _ => Ok z
  | PyFloat _, Strict => Err TypeError
  | PyFloat q, Truncating => Ok (Z.quot (Qnum q) (Zpos (Qden q)))
  end.
(* a slice bound against an axis of length n *)
Definition bound (n : nat) (z : Z) : nat := Z.to_nat (if z <? 0 then Z.max 0 (z + Z.of_nat n) else Z.min z (Z.of_nat n)).
Definition bounds (r : numpy_rules) (n : nat) (start : pynum) (stop : option pynum) : res (nat * nat) :=
  a <- as_index r start ;;
  b <- match stop with None => Ok (Z.of_nat n) | Some s => as_index r s end ;;
  Ok (bound n a, bound n b).
(* l[start:stop] *)
Definition get_slice (r : numpy_rules) (l : list C) (start : pynum) (stop : option pynum) : res (list C) :=
  ab <- bounds r (length l) start stop ;;
  Ok (firstn (snd ab - fst ab) (skipn (fst ab) l)).
(* a value assigned to n places: same length, or length 1 (broadcast), else ValueError *)
Definition broadcast (n : nat) (v : list C) : res (list C) :=
  if (length v =? n)%nat then Ok v else match v with [x] => Ok (repeat x n) | _ => Err ValueError end.
(* l[start:stop] = v *)
Definition set_slice (r : numpy_rules) (l : list C) (start : pynum) (stop : option pynum) (v : list C) : res (list C) :=
  ab <- bounds r (length l) start stop ;;
  w <- broadcast (snd ab - fst ab) v ;;
  Ok (firstn (fst ab) l ++ w ++ skipn (fst ab + (snd ab - fst ab)) l).

(* numpy.fft.fft / ifft of a 1-D array; an empty array raises ValueError *)
Definition dft (sign : R) (v : list C) (k : nat) : C :=
  Csum (map (fun t => Cmul (nth t v C0) (cis (sign * (2 * PI * INR k * INR t / INR (length v)))))%R (seq 0 (length v))).
Definition fft (v : list C) : res (list C) :=
  match v with [] => Err ValueError | _ => Ok (map (dft (-1) v) (seq 0 (length v))) end.
Definition ifft (v : list C) : res (list C) :=
  match v with [] => Err ValueError | _ => Ok (map (fun k => Cscale (/ INR (length v)) (dft 1 v k)) (seq 0 (length v))) end.

(* ---------------------------------------------------------------- ofdm_tx: 265-282 *)
(* body of the loop, 274-280; [symbols] = x[:, i] *)
Definition ofdm_tx_symbol (r : numpy_rules) (nfft nsc cp_length : Q) (symbols : list C) : res (list C) :=
  n <- as_index r (PyFloat nfft) ;;                                                          (* 275: zeros(nfft) *)
  let freq := repeat C0 (Z.to_nat n) in
  upper <- get_slice r symbols (PyFloat (nsc / 2)) None ;;                                   (* 276 *)
  freq <- set_slice r freq (PyInt 1) (Some (PyFloat (nsc / 2 + 1))) upper ;;
  lower <- get_slice r symbols (PyInt 0) (Some (PyFloat (nsc / 2))) ;;                       (* 277 *)
  freq <- set_slice r freq (PyFloat (- (nsc / 2))) None lower ;;
  time <- ifft freq ;;                                                                       (* 278 *)
  cp <- get_slice r time (PyFloat (- cp_length)) None ;;                                     (* 279 *)
  Ok (cp ++ time).                                                                           (* 280 *)
(* x is given by its columns *)
Definition ofdm_tx (r : numpy_rules) (x : list (list C)) (nfft nsc cp_length : nat) : res (list C) :=
  let q n := inject_Z (Z.of_nat n) in                                                        (* 268-270: float(...) *)
  foldM (fun signal symbols => s <- ofdm_tx_symbol r (q nfft) (q nsc) (q cp_length) symbols ;; Ok (signal ++ s)) x [].

(* ---------------------------------------------------------------- ofdm_rx: 285-296 *)
(* body of the loop, 291-294 *)
Definition ofdm_rx_symbol (r : numpy_rules) (y : list C) (nfft nsc cp_length i : nat) : res (list C) :=
  symbol <- get_slice r y (PyInt (Z.of_nat (i * nfft + (i + 1) * cp_length))) (Some (PyInt (Z.of_nat ((i + 1) * (nfft + cp_length))))) ;;
  freq <- fft symbol ;;
  let q := inject_Z (Z.of_nat nsc) in
  lower <- get_slice r freq (PyFloat (- q / 2)) None ;;
  upper <- get_slice r freq (PyInt 1) (Some (PyFloat (q / 2 + 1))) ;;
  broadcast nsc (lower ++ upper).
(* 288: int(len(y) / (nfft + cp_length)), exact below 2 ** 52.  The result (nsc rows) is given by its columns. *)
Definition ofdm_rx (r : numpy_rules) (y : list C) (nfft nsc cp_length : nat) : res (list (list C)) :=
  if (nfft + cp_length =? 0)%nat then Err ZeroDivisionError
  else mapM (ofdm_rx_symbol r y nfft nsc cp_length) (seq 0 (length y / (nfft + cp_length))).
