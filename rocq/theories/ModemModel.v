(* Model of /repo/commpy/modulation.py, part 1: Modem, PSKModem, QAMModem (lines 40-262; ofdm_tx and ofdm_rx are in OfdmModel.v), and of
   signal_power and euclid_dist (utilities.py 135-154, 185-205).  Numbers are exact reals / complex numbers. *)
From Verif Require Import Base UtilModel Cplx.
Open Scope Z_scope.

(* ---------------------------------------------------------------- library functions *)
(* sympy GrayCode(n).generate_gray(), read as integers (int(g, 2)).  Loop of sympy.combinatorics.graycode, not part of /repo:
     for i in range(0, 1 << n): yield current; bbtc = i ^ (i + 1); gbtc = bbtc ^ (bbtc >> 1); current ^= gbtc *)
Fixpoint gray_loop (count : nat) (i current : Z) : list Z :=
  match count with
  | O => []
  | S c => let bbtc := Z.lxor i (i + 1) in let gbtc := Z.lxor bbtc (Z.shiftr bbtc 1) in
           current :: gray_loop c (i + 1) (Z.lxor current gbtc)
  end.
Definition gray_sequence (n : nat) : list Z := gray_loop (2 ^ n) 0 0.

(* ndarray.argsort(): indices sorted by value.  Insertion sort; on distinct values every sorting algorithm agrees. *)
Fixpoint insert_key (k : Z * nat) (l : list (Z * nat)) : list (Z * nat) :=
  match l with
  | [] => [k]
  | x :: l' => if fst k <=? fst x then k :: l else x :: insert_key k l'
  end.
Definition argsort (l : list Z) : list nat := map snd (fold_right insert_key [] (combine l (seq 0 (length l)))).

(* log2(len) == int(log2(len)): Some b iff len = 2 ** b.  np.log2 is exact on powers of two; it would round other lengths
   to an integer only beyond 2 ** 47 entries. *)
Definition log2_exact (len : nat) : option nat := let b := Nat.log2 len in if (2 ^ b =? len)%nat then Some b else None.

(* first index of the minimum, numpy argmin *)
Fixpoint argmin_from (best : R) (besti i : nat) (l : list R) : nat :=
  match l with
  | [] => besti
  | x :: l' => if Rlt_dec x best then argmin_from x i (S i) l' else argmin_from best besti (S i) l'
  end.
Definition argmin (l : list R) : res nat := match l with [] => Err ValueError | x :: l' => Ok (argmin_from x 0 1 l') end.

(* ---------------------------------------------------------------- utilities.py *)
(* 201-205 signal_power: np.vectorize rejects an empty array *)
Definition signal_power (s : list C) : res R :=
  match s with [] => Err ValueError | _ => Ok (Rsum (map (fun x => Cabs x * Cabs x)%R s) / INR (length s))%R end.

(* 153-154 euclid_dist *)
Definition euclid_dist (a b : list R) : res R :=
  l <- np_broadcast2 a b ;; Ok (Rsum (map (fun xy => (fst xy - snd xy) * (fst xy - snd xy))%R l)).

(* ---------------------------------------------------------------- modulation.py: Modem *)
Record modem := { points : list C; num_bits : nat; size_m : nat; energy : R }.   (* _constellation, num_bits_symbol, m, Es *)

(* 160-172 constellation setter.  log2(0) = -inf and int(-inf) raises OverflowError. *)
Definition set_constellation (value : list C) : res modem :=
  match value with
  | [] => Err OverflowError
  | _ => match log2_exact (length value) with
         | None => Err ValueError
         | Some b => es <- signal_power value ;; Ok {| points := value; num_bits := b; size_m := length value; energy := es |}
         end
  end.

(* 68-78 __init__.  GrayCode(m) raises ValueError unless m is an integer >= 1 (the message formats -inf for an empty list:
   OverflowError).  array(constellation)[order]: fancy indexing. *)
Definition modem_init (constellation : list C) (reorder_as_gray : bool) : res modem :=
  if reorder_as_gray then
    match constellation, log2_exact (length constellation) with
    | [], _ => Err OverflowError
    | _, None | _, Some O => Err ValueError
    | _, Some b => set_constellation (map (fun i => nth i constellation C0) (argsort (gray_sequence b)))
    end
  else set_constellation constellation.

(* 93-98 modulate.  np.arange with step 0 raises ZeroDivisionError, np.vectorize rejects an empty array. *)
Definition modulate (md : modem) (input_bits : list Z) : res (list C) :=
  if (num_bits md =? 0)%nat then Err ZeroDivisionError
  else match input_bits with
  | [] => Err ValueError
  | _ => mapM (fun k => py_get (points md) (bitarray2dec (slice input_bits (k * num_bits md) (k * num_bits md + num_bits md))))
              (seq 0 ((length input_bits + num_bits md - 1) / num_bits md))
  end.

Inductive demod := Hard | Soft | OtherType.

(* 121-123 hard decisions: argmin over axis 0 of the distances *)
Definition hard_index (md : modem) (y : C) : res nat := argmin (map (fun s => Cabs (y - s)%C) (points md)).

(* 130-136: the two accumulators for one bit; symbols are enumerated in label order *)
Definition llr_sums (md : modem) (y : C) (noise_var : R) (bit_index : nat) : R * R :=
  fold_left (fun acc ls =>
      let e := exp ((- (Cabs (y - snd ls)%C * Cabs (y - snd ls)%C)) / noise_var)%R in
      if Z.land (Z.shiftr (Z.of_nat (fst ls)) (Z.of_nat bit_index)) 1 =? 1 then (fst acc + e, snd acc)%R else (fst acc, snd acc + e)%R)
    (combine (seq 0 (length (points md))) (points md)) (0, 0)%R.

(* 125-137 soft decisions; the cells are written one by one *)
Definition demod_soft (md : modem) (ys : list C) (noise_var : R) : list R :=
  fold_left (fun out i =>
      fold_left (fun out bit_index =>
          let '(num, den) := llr_sums md (nth i ys C0) noise_var bit_index in
          upd out (i * num_bits md + num_bits md - 1 - bit_index) (ln (num / den)))
        (seq 0 (num_bits md)) out)
    (seq 0 (length ys)) (repeat 0%R (length ys * num_bits md)).

(* 121-141 demodulate; the result is an array of ints or of floats *)
Definition demodulate (md : modem) (ys : list C) (t : demod) (noise_var : R) : res (list Z + list R) :=
  match t with
  | Hard => idx <- mapM (hard_index md) ys ;; b <- dec2bitarray_arr (map Z.of_nat idx) (num_bits md) ;; Ok (inl b)
  | Soft => Ok (inr (demod_soft md ys noise_var))
  | OtherType => Err ValueError
  end.

(* ---------------------------------------------------------------- PSKModem: 203-210 *)
(* exp(1j * arange(0, 2 * pi, 2 * pi / m)): m is a power of two here, so 2 * pi / m is exact and the range has m entries *)
Definition psk_points (m : nat) : list C := map (fun k => cis (INR k * (2 * PI / INR m))) (seq 0 m).
Definition psk_modem (m : nat) : res modem :=
  if (m =? 0)%nat then Err OverflowError
  else match log2_exact m with None => Err ValueError | Some _ => modem_init (psk_points m) true end.

(* ---------------------------------------------------------------- QAMModem: 256-262 *)
(* pam = arange(-n + 1, n, 2) *)
Definition pam (n : nat) : list R := map (fun i => (2 * INR i - INR n + 1)%R) (seq 0 n).
(* tile(hstack((pam, pam[::-1])), n // 2) * 1j + pam.repeat(n): 1-D broadcasting *)
Definition qam_points (n : nat) : res (list C) :=
  l <- np_broadcast2 (concat (repeat (pam n ++ rev (pam n)) (n / 2))) (flat_map (fun x => repeat x n) (pam n)) ;;
  Ok (map (fun ba => mkC (snd ba) (fst ba)) l).
Definition qam_modem (m : nat) : res modem :=
  let n := Nat.sqrt m in
  if (n * n =? m)%nat then (c <- qam_points n ;; modem_init c true) else Err ValueError.
