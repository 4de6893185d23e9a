(* Conformance of the model with the input/output vectors of the repository's own tests and docstrings: each Example computes
   the model on the test's input and finds the test's expected output.  These are tests of the model (not properties). *)
From Verif Require Import Base UtilModel SeqModel GFModel TrellisModel LegacyModel ViterbiModel TurboModel LinksModel WifiModel.

(* ------------------------------------------------------------------ tests/test_utilities.py *)
Example t_dec2bitarray : dec2bitarray 17 8 = Ok [0; 0; 0; 1; 0; 0; 0; 1].
Proof. reflexivity. Qed.
Example t_dec2bitarray_arr : dec2bitarray_arr [17; 12] 5 = Ok [1; 0; 0; 0; 1; 0; 1; 1; 0; 0].
Proof. reflexivity. Qed.

(* ------------------------------------------------------------------ tests/test_sequences.py 11-24 *)
Example t_pn : pnsequence 4 [0; 0; 1; 1] [1; 1; 0; 1] 7 = Ok [1; 1; 0; 0; 1; 0; 1].
Proof. reflexivity. Qed.
Example t_pn_seed : pnsequence 4 [0; 0; 1] [1; 1; 0; 1] 15 = Err ValueError.
Proof. reflexivity. Qed.
Example t_pn_mask : pnsequence 4 [0; 0; 1; 1] [1; 1; 0] 15 = Err ValueError.
Proof. reflexivity. Qed.

(* ------------------------------------------------------------------ channelcoding/tests/test_gfields.py *)
Definition els (r : res GF) : res (list Z) := g <- r ;; elements g.
Definition range (a n : nat) : list Z := map Z.of_nat (seq a n).

Example t_gf_add : els (a <- GF_arr (range 0 8) 3 ;; b <- GF_arr [6; 4; 3; 1; 2; 0; 5; 7] 3 ;; gf_add a b) = Ok [6; 5; 1; 2; 6; 5; 3; 0].
Proof. vm_compute. reflexivity. Qed.
Example t_gf_mul : els (a <- GF_arr [7; 6; 5; 4; 3; 2; 1; 0] 3 ;; b <- GF_arr [6; 4; 3; 1; 2; 0; 5; 7] 3 ;; gf_mul a b) = Ok [4; 5; 4; 4; 6; 0; 5; 0].
Proof. vm_compute. reflexivity. Qed.
Example t_gf_tuple : els (a <- GF_arr (range 0 7) 3 ;; power_to_tuple a) = Ok [1; 2; 4; 3; 6; 7; 5].
Proof. vm_compute. reflexivity. Qed.
Example t_gf_power3 : els (a <- GF_arr (range 1 7) 3 ;; tuple_to_power a) = Ok [0; 1; 3; 2; 6; 4; 5].
Proof. vm_compute. reflexivity. Qed.
Example t_gf_power4 : els (a <- GF_arr (range 1 15) 4 ;; tuple_to_power a) = Ok [0; 1; 4; 2; 8; 5; 10; 3; 14; 9; 7; 6; 13; 11; 12].
Proof. vm_compute. reflexivity. Qed.
Example t_gf_order : (a <- GF_arr (range 1 15) 4 ;; gf_order a) = Ok [1; 15; 15; 15; 15; 3; 3; 5; 15; 5; 15; 5; 15; 15; 5].
Proof. vm_compute. reflexivity. Qed.
Example t_gf_minpolys4 : (a <- GF_arr (range 0 16) 4 ;; gf_minpolys a) = Ok [2; 3; 19; 19; 19; 19; 7; 7; 31; 25; 31; 25; 31; 25; 25; 31].
Proof. vm_compute. reflexivity. Qed.
Example t_gf_minpolys6 : (a <- GF_arr [2; 8; 32; 6; 24; 35; 10; 40; 59; 41; 14; 37] 6 ;; gf_minpolys a)
                       = Ok [67; 87; 103; 73; 13; 109; 91; 117; 7; 115; 11; 97].
Proof. vm_compute. reflexivity. Qed.
(* gfields.py 36-42 *)
Example t_gf_doc : match GF_arr (range 0 16) 4 with Ok g => gf_elements g = Some (range 0 16) /\ gf_prim g = 19 | _ => False end.
Proof. split; reflexivity. Qed.

(* ------------------------------------------------------------------ channelcoding/tests/test_algcode.py *)
Example t_genpoly_15_4 : cyclic_code_genpoly 15 4 = Ok [2479; 3171; 3929].
Proof. vm_compute. reflexivity. Qed.
Example t_genpoly_31_21 : cyclic_code_genpoly 31 21 =
  Ok [1653; 1667; 1503; 1207; 1787; 1561; 1903; 1219; 1137; 2013; 1453; 1897; 1975; 1395; 1547].
Proof. vm_compute. reflexivity. Qed.

(* ------------------------------------------------------------------ channelcoding/tests/test_convcode.py *)
(* the content of the uninitialised register array does not matter: any value will do *)
Definition junk : regs := fun r c => Z.of_nat (7 * r + 3 * c + 1).
Definition code1 := make_trellis junk [2%nat] 2 [[5; 7]] None false MSB.
Definition code2 := r <- make_trellis_int [2%nat] 2 [[1; 7]] 5 true ;; Ok (fst r).
Definition code3 := make_trellis junk [2%nat; 1%nat] 3 [[5; 7; 0]; [0; 2; 3]] None false MSB.
Definition code4 := make_trellis junk [2%nat; 1%nat] 3 [[5; 7; 0]; [0; 2; 6]] None false LSB.
Definition code5 := make_trellis junk [1%nat; 1%nat] 3 [[1; 0; 0]; [0; 1; 3]] (Some [[2; 2]; [3; 1]]) true MSB.
Definition tables (r : res Trellis) := t <- r ;; Ok (tr_next t, tr_out t).

Example t_code1 : tables code1 = Ok ([[0; 2]; [0; 2]; [1; 3]; [1; 3]], [[0; 3]; [3; 0]; [1; 2]; [2; 1]]).
Proof. vm_compute. reflexivity. Qed.
Example t_code2 : tables code2 = Ok ([[0; 2]; [2; 0]; [1; 3]; [3; 1]], [[0; 3]; [0; 3]; [1; 2]; [1; 2]]).
Proof. vm_compute. reflexivity. Qed.
Definition next34 := [[0; 1; 4; 5]; [0; 1; 4; 5]; [0; 1; 4; 5]; [0; 1; 4; 5]; [2; 3; 6; 7]; [2; 3; 6; 7]; [2; 3; 6; 7]; [2; 3; 6; 7]].
Definition out34 := [[0; 1; 6; 7]; [3; 2; 5; 4]; [6; 7; 0; 1]; [5; 4; 3; 2]; [2; 3; 4; 5]; [1; 0; 7; 6]; [4; 5; 2; 3]; [7; 6; 1; 0]].
Example t_code3 : tables code3 = Ok (next34, out34).
Proof. vm_compute. reflexivity. Qed.
Example t_code4 : tables code4 = Ok (next34, out34).
Proof. vm_compute. reflexivity. Qed.
Example t_code5 : tables code5 = Ok ([[0; 1; 1; 0]; [2; 3; 3; 2]; [3; 2; 2; 3]; [1; 0; 0; 1]], [[0; 3; 4; 7]; [1; 2; 5; 6]; [0; 3; 4; 7]; [1; 2; 5; 6]]).
Proof. vm_compute. reflexivity. Qed.
(* convcode.py 92-101 *)
Example t_doc_trellis : match code1 with Ok t => (tr_k t, tr_n t, tr_M t, number_states t, number_inputs t) = (1, 2, 2, 4, 2)%nat | _ => False end.
Proof. reflexivity. Qed.

Definition mes := [0; 0; 1; 0].
Definition enc (c : res Trellis) (m : list Z) (t : termination) := tr <- c ;; conv_encode m tr t None.
Example t_encode1 : enc code1 mes Cont = Ok [0; 0; 0; 0; 1; 1; 0; 1].
Proof. vm_compute. reflexivity. Qed.
Example t_encode2 : enc code2 mes Cont = Ok [0; 0; 0; 0; 1; 1; 0; 1].
Proof. vm_compute. reflexivity. Qed.
Example t_encode3 : enc code3 mes Cont = Ok [0; 0; 0; 1; 1; 0].
Proof. vm_compute. reflexivity. Qed.
Example t_encode4 : enc code4 mes Cont = Ok [0; 0; 0; 1; 1; 0].
Proof. vm_compute. reflexivity. Qed.
Example t_encode5 : enc code5 mes Cont = Ok [0; 0; 0; 1; 0; 0].
Proof. vm_compute. reflexivity. Qed.

(* test_conv_encode_viterbi_decode 137-143 with a fixed message of 30 bits instead of 1000 random ones, hard decisions,
   depth 15, terminated and not *)
Definition msg30 := [1; 0; 1; 1; 0; 0; 0; 1; 1; 1; 0; 1; 0; 0; 1; 0; 1; 1; 1; 1; 0; 0; 1; 0; 1; 0; 0; 0; 1; 1].
Definition dirty : nat -> scratch Z := fun t => {| pmetrics := repeat None 4; index_array := repeat (7, 7) 4 |}.
Definition dirty2 : nat -> scratch Z := fun t => {| pmetrics := repeat None 2; index_array := repeat (7, 7) 2 |}.
Definition dec (c : res Trellis) g (coded : res (list Z)) : res (list (option Z)) :=
  tr <- c ;; r <- coded ;; d <- viterbi_decode Z.add Z.leb 0 hard r tr (Some 15%nat) (fun _ _ => 99) g ;; Ok (firstn 30 (fst d)).
Example t_decode1 : dec code1 dirty2 (enc code1 msg30 Term) = Ok (map Some msg30) /\ dec code1 dirty2 (enc code1 msg30 Cont) = Ok (map Some msg30).
Proof. split; vm_compute; reflexivity. Qed.
Example t_decode2 : dec code2 dirty2 (enc code2 msg30 Term) = Ok (map Some msg30) /\ dec code2 dirty2 (enc code2 msg30 Cont) = Ok (map Some msg30).
Proof. split; vm_compute; reflexivity. Qed.
Example t_decode3 : dec code3 dirty (enc code3 msg30 Term) = Ok (map Some msg30) /\ dec code3 dirty (enc code3 msg30 Cont) = Ok (map Some msg30).
Proof. split; vm_compute; reflexivity. Qed.
Example t_decode4 : dec code4 dirty (enc code4 msg30 Term) = Ok (map Some msg30) /\ dec code4 dirty (enc code4 msg30 Cont) = Ok (map Some msg30).
Proof. split; vm_compute; reflexivity. Qed.
Example t_decode5 : dec code5 dirty (enc code5 msg30 Term) = Ok (map Some msg30) /\ dec code5 dirty (enc code5 msg30 Cont) = Ok (map Some msg30).
Proof. split; vm_compute; reflexivity. Qed.

(* ------------------------------------------------------------------ tests/test_links.py 83-90: send_chunk = 720 *)
Example t_chunk_qpsk : round_chunk 2 1 1 720 = 720.        (* QPSK, one antenna, rate 1 *)
Proof. reflexivity. Qed.
Example t_chunk_ldpc : round_chunk (4 * 4) 1 2 720 = 720.  (* 16-QAM, 4 antennas, rate 1/2 *)
Proof. reflexivity. Qed.
