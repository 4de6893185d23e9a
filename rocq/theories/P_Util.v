(* Properties C01-C05, C07: commpy.utilities (integer part). *)
From Verif Require Import Base UtilModel UtilProofs CacheModel CacheProofs.

(* ---------------------------------------------------------------- C01 *)
(* MSB-first: entry i is binary digit w-1-i of n. *)
Theorem C01_int_to_bits_and_back : forall (n : Z) (w : nat), 0 <= n < 2 ^ Z.of_nat w ->
  exists b, dec2bitarray n w = Ok b /\ length b = w /\ bits b /\
            (forall i, (i < w)%nat -> nth i b 0 = (n / 2 ^ (Z.of_nat w - 1 - Z.of_nat i)) mod 2) /\
            bitarray2dec b = n.
Proof. exact dec2bitarray_full. Qed.
Print Assumptions C01_int_to_bits_and_back.
Example C01_witness : dec2bitarray 6 4 = Ok [0; 1; 1; 0] /\ 0 <= 6 < 2 ^ Z.of_nat 4.
Proof. split; [reflexivity|cbn; lia]. Qed.

(* ---------------------------------------------------------------- C02 *)
Theorem C02_bits_to_int_and_back : forall b : list Z, bits b ->
  dec2bitarray (bitarray2dec b) (length b) = Ok b /\ 0 <= bitarray2dec b < 2 ^ Z.of_nat (length b).
Proof. exact bits_roundtrip. Qed.
Print Assumptions C02_bits_to_int_and_back.
Example C02_witness : bits [0; 1; 1; 0; 1] /\ bitarray2dec [0; 1; 1; 0; 1] = 13.
Proof. split; [repeat constructor; (left; reflexivity) || (right; reflexivity)|reflexivity]. Qed.

(* array argument: the concatenation of the element-wise conversions, w bits each *)
Theorem C02_array_form : forall (ns : list Z) (w : nat),
  (forall n, In n ns -> 0 <= n < 2 ^ Z.of_nat w) ->
  exists b, dec2bitarray_arr ns w = Ok b /\ length b = (w * length ns)%nat /\
    (forall q r n, nth_error ns q = Some n -> (r < w)%nat ->
        nth (q * w + r) b 0 = (n / 2 ^ (Z.of_nat w - 1 - Z.of_nat r)) mod 2).
Proof. exact dec2bitarray_arr_full. Qed.
Print Assumptions C02_array_form.
Example C02_array_witness : dec2bitarray_arr [2; 3; 0] 2 = Ok [1; 0; 1; 1; 0; 0].
Proof. reflexivity. Qed.

(* ---------------------------------------------------------------- C03 *)
(* Numbers of w+1 .. 2w bits: no error; the array is the OR of the low w and the next w bits of n
   and does not convert back to n.  More than 2w bits: IndexError. *)
Theorem C03_too_wide : forall (n : Z) (w : nat), 2 ^ Z.of_nat w <= n ->
  (n < 2 ^ (2 * Z.of_nat w) ->
     exists b, dec2bitarray n w = Ok b /\ length b = w /\
               bitarray2dec b = Z.lor (n mod 2 ^ Z.of_nat w) (n / 2 ^ Z.of_nat w) /\ bitarray2dec b <> n) /\
  (2 ^ (2 * Z.of_nat w) <= n -> dec2bitarray n w = Err IndexError).
Proof. exact dec2bitarray_too_wide. Qed.
Print Assumptions C03_too_wide.
Example C03_witness : 2 ^ Z.of_nat 2 <= 9 < 2 ^ (2 * Z.of_nat 2) /\ dec2bitarray 9 2 = Ok [1; 1] /\
                      dec2bitarray 16 2 = Err IndexError.
Proof. repeat split; cbn; lia || reflexivity. Qed.

Theorem C03_negative : forall (n : Z) (w : nat), n < 0 -> dec2bitarray n w = Ok (repeat 0 w).
Proof. exact dec2bitarray_negative. Qed.
Print Assumptions C03_negative.
Example C03_negative_witness : dec2bitarray (-5) 3 = Ok [0; 0; 0].
Proof. reflexivity. Qed.

(* ---------------------------------------------------------------- C04 *)
(* After ANY history of conversions and of writes into arrays returned by dec2bitarray, dec2bitarray
   returns what it returns in a fresh interpreter, and the cache never holds more than 128 arrays. *)
Theorem C04_history_independent : forall h : list event, no_shared_write h ->
  (forall n w, fst (cstep (crun cinit h) (CallDec n w)) = Some (dec2bitarray n w)) /\
  (forall ns w, fst (cstep (crun cinit h) (CallDecArr ns w)) = Some (dec2bitarray_arr ns w)) /\
  (length (cache (crun cinit h)) <= 128)%nat.
Proof. exact history_independent. Qed.
Print Assumptions C04_history_independent.
Example C04_witness :
  let h := [CallDec 6 4; WriteOwned 1 0 9; CallD2B 6 4; CallDecArr [6; 1] 4] in
  no_shared_write h /\ get_arr (crun cinit h) 1 = [9; 1; 1; 0] /\
  fst (cstep (crun cinit h) (CallDec 6 4)) = Some (Ok [0; 1; 1; 0]).
Proof. cbn; repeat split; try reflexivity. repeat constructor. Qed.

(* Without the restriction the property fails: decimal2bitarray hands out the cached array itself. *)
Theorem C04_decimal2bitarray_aliasing_refuted :
  exists h n w, fst (cstep (crun cinit h) (CallDec n w)) <> Some (dec2bitarray n w) /\
                fst (cstep (crun cinit h) (CallD2B n w)) <> Some (decimal2bitarray n w).
Proof.
  exists [CallD2B 6 4; WriteShared 0 0 1], 6, 4%nat. cbn. split; discriminate.
Qed.
Print Assumptions C04_decimal2bitarray_aliasing_refuted.

(* ---------------------------------------------------------------- C05 *)
(* number of positions at which two arrays differ *)
Definition differing_positions (a b : list Z) : Z :=
  Z.of_nat (length (filter (fun i => negb (nth i a 0 =? nth i b 0)) (seq 0 (length a)))).

Theorem C05_hamming_counts : forall a b : list Z, bits a -> bits b -> length a = length b ->
  hamming_dist a b = Ok (differing_positions a b).
Proof. exact hamming_counts. Qed.
Print Assumptions C05_hamming_counts.

Theorem C05_hamming_metric : forall a b c : list Z, bits a -> bits b -> bits c ->
  length a = length b -> length b = length c ->
  exists dab dba dbc dac,
    hamming_dist a b = Ok dab /\ hamming_dist b a = Ok dba /\ hamming_dist b c = Ok dbc /\ hamming_dist a c = Ok dac /\
    0 <= dab <= Z.of_nat (length a) /\ (dab = 0 <-> a = b) /\ dab = dba /\ dac <= dab + dbc.
Proof. exact hamming_metric. Qed.
Print Assumptions C05_hamming_metric.
Example C05_witness : hamming_dist [0; 1; 1] [1; 1; 0] = Ok 2 /\ bits [0; 1; 1] /\ bits [1; 1; 0].
Proof. repeat split; repeat constructor; (left; reflexivity) || (right; reflexivity). Qed.

(* NumPy broadcasting: unequal lengths raise exactly when neither has length 1. *)
Theorem C05_hamming_shape : forall a b : list Z, length a <> length b ->
  (hamming_dist a b = Err ValueError <-> length a <> 1%nat /\ length b <> 1%nat).
Proof. exact hamming_shape. Qed.
Print Assumptions C05_hamming_shape.
Example C05_shape_witness : hamming_dist [0; 1; 1] [1; 1] = Err ValueError /\ hamming_dist [0; 1; 1] [1] = Ok 1.
Proof. split; reflexivity. Qed.

(* ---------------------------------------------------------------- C07 *)
(* Every cell of the np.empty result is written (Some), x[i] at n*i, zero elsewhere. *)
Theorem C07_upsample : forall (A : Type) (zero : A) (x : list A) (n : nat),
  (n = 0%nat -> upsample zero x n = Err ValueError) /\
  ((1 <= n)%nat -> exists y, upsample zero x n = Ok y /\ length y = (length x * n)%nat /\
     (forall i a, nth_error x i = Some a -> nth_error y (n * i) = Some (Some a)) /\
     (forall j, (j < length x * n)%nat -> (j mod n <> 0)%nat -> nth_error y j = Some (Some zero))).
Proof. exact @upsample_full. Qed.
Print Assumptions C07_upsample.
Example C07_witness : upsample 0 [5; 7] 3 = Ok (map Some [5; 0; 0; 7; 0; 0]).
Proof. reflexivity. Qed.
