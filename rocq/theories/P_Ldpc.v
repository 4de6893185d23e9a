(* LDPC codes: properties C37-C40, C67, C71 and C72. *)
From Coq Require Import Reals Lra QArith Ascii String Permutation.
From Verif Require Import Base TurboSpec LdpcModel LdpcSpec LdpcCheck LdpcDecModel LdpcBPSpec LdpcTreeSpec LdpcTree LdpcTop.
Open Scope Z_scope.
Notation nth := List.nth.
Notation length := List.length.

(* A (6, 3) code: H = [P | S] with S unit lower triangular. *)
Definition exH : arr2 := {| a_cols := 6; a_rows := [[1; 1; 0; 1; 0; 0]; [0; 1; 1; 1; 1; 0]; [1; 0; 1; 0; 1; 1]] |}.
Definition exP : ldpc := {| n_vnodes := 6; n_cnodes := 3; max_vdeg := 2; max_cdeg := 4; v_adj := []; c_adj := [0; 1; 3; -1; 1; 2; 3; 4; 4; 5; 2; 0]; c_map := []; v_map := [];
  v_deg := []; c_deg := [3; 4; 4]; p_matrix := None; p_gen := None |}.
Lemma exP_describes : describes exP exH.
Proof.
  apply describesb_ok. vm_compute. reflexivity.
Qed.
Lemma exH_lower : unit_lower exH.
Proof. intros i l Hi Hl Hil. cbn in Hi, Hl. do 3 (destruct i as [|i]; [do 3 (destruct l as [|l]; [first [reflexivity|lia]|]); lia|]). lia. Qed.

(* ---------------------------------------------------------------- C37 *)

Theorem C37_codewords :
(* the last n_cnodes columns of the parity-check matrix have an integer inverse, e.g. because they are unit triangular *)
  forall (p : ldpc) (H : arr2), describes p H -> (2 <= length (a_rows H) < a_cols H)%nat -> int_invertible H \/ unit_lower H \/ unit_upper H -> p_gen p = None \/ p_matrix p = None ->
    exists p' : ldpc, p_matrix p' = Some H /\
      forall msg : list Z, bits msg -> exists blocks : list (list Z),
        coded H msg blocks /\
        (* the first call computes the matrices, later calls reuse them *)
        triang_encode msg p true = (p', Ok blocks) /\ triang_encode msg p' true = (p', Ok blocks) /\
        (* without padding: the same when the length is a multiple of the message block length, else ValueError *)
        let r := if (length msg mod (a_cols H - length (a_rows H)) =? 0)%nat then Ok blocks else Err ValueError in
        triang_encode msg p false = (p', r) /\ triang_encode msg p' false = (p', r).
Proof. exact C37_codewords_proof. Qed.
Print Assumptions C37_codewords.
Example C37_witness : describes exP exH /\ (2 <= length (a_rows exH) < a_cols exH)%nat /\ unit_lower exH /\ p_gen exP = None /\ snd (triang_encode [1; 0; 1; 1] exP true) = Ok [[1; 0; 1; 1; 0; 0]; [1; 0; 0; 1; 1; 0]].
Proof. split; [exact exP_describes|]. split; [cbn; lia|]. split; [exact exH_lower|]. split; [reflexivity|]. vm_compute. reflexivity. Qed.

Theorem C37_singular :
(* columns dependent over the rationals: RuntimeError; the parity-check matrix is nevertheless added to the dictionary *)
  forall (p : ldpc) (H : arr2) (msg : list Z) (pad : bool), describes p H -> (2 <= length (a_rows H) <= a_cols H)%nat -> singular H -> p_gen p = None ->
    triang_encode msg p pad = (set_matrix p H, Err RuntimeError).
Proof. exact C37_singular_proof. Qed.
Print Assumptions C37_singular.
Definition exHs : arr2 := {| a_cols := 4; a_rows := [[1; 0; 1; 1]; [0; 1; 1; 1]] |}.
Example C37_singular_witness : binary exHs /\ singular exHs.
Proof. split; [apply binaryb_ok; vm_compute; reflexivity|]. exists (fun l => if (l =? 0)%nat then 1 else -1). split; [exists 0%nat; split; [cbn; lia|discriminate]|]. intros i Hi. cbn in Hi. do 2 (destruct i as [|i]; [reflexivity|]). lia. Qed.

Theorem C37_odd_determinant_refuted :
(* invertibility modulo 2 is not enough: H = [P | S] with det S = -3, B S = I modulo 2, is a fine code, but the encoder
     (which inverts S over the reals) outputs a word violating a parity check *)
  exists (p : ldpc) (H : arr2) (msg block : list Z), describes p H /\ bits msg /\
    (exists B : nat -> nat -> Z, forall i l, (i < 4)%nat -> (l < 4)%nat -> (sumto 4 (fun q => B i q * hij (a_rows H) q (4 + l))) mod 2 = if (i =? l)%nat then 1 else 0) /\
    snd (triang_encode msg p true) = Ok [block] /\ ~ satisfies H block.
Proof. exact C37_odd_determinant_refuted_proof. Qed.
Print Assumptions C37_odd_determinant_refuted.

(* ---------------------------------------------------------------- C38 *)

Theorem C38_round_trip :
(* what is written is read back, character by character, for every 0/1 matrix without zero row or column; no other file changes *)
  forall (H : arr2) (path : string) (fs : fsys), binary H -> (1 <= length (a_rows H))%nat -> (1 <= a_cols H)%nat -> Z.of_nat (length (a_rows H)) < 2 ^ 31 -> Z.of_nat (a_cols H) < 2 ^ 31 ->
    no_zero_row H -> no_zero_column H -> lookup path fs = None ->
    exists (fs' : fsys) (p : ldpc), write_ldpc_params H path fs = (fs', Ok tt) /\ (forall q, q <> path -> lookup q fs' = lookup q fs) /\
      get_ldpc_code_params path false fs' = Ok p /\ describes p H /\ describes_columns p H /\ maps_inverse p /\
      (* the matrix built from the dictionary is the one that was written *)
      p_matrix (fst (build_matrix p)) = Some H /\
      get_ldpc_code_params path true fs' = match snd (build_matrix p) with Ok _ => Ok (fst (build_matrix p)) | Err e => Err e end.
Proof. exact C38_round_trip_proof. Qed.
Print Assumptions C38_round_trip.
Example C38_witness : binary exH /\ no_zero_row exH /\ no_zero_column exH /\ fst (write_ldpc_params exH "code.txt" []) = [("code.txt"%string, list_ascii_of_string
"6 3
2 4
2 2 2 2 2 1 
3 4 4 
1	3
1	2
2	3
1	2
2	3
3
1	2	4
2	3	4	5
1	3	5	6

")].
Proof.
  split; [exact (proj1 exP_describes)|]. split; [|split].
  - intros i Hi. cbn in Hi. destruct i as [|[|[|i]]]; [exists 0%nat|exists 1%nat|exists 0%nat|lia]; (split; [cbn; lia|discriminate]).
  - intros j Hj. cbn in Hj. destruct j as [|[|[|[|[|[|j]]]]]]; [exists 0%nat|exists 0%nat|exists 1%nat|exists 0%nat|exists 1%nat|exists 2%nat|lia]; (split; [cbn; lia|discriminate]).
  - vm_compute. reflexivity.
Qed.

Theorem C38_numbers :
(* the numbers of a design file may be signed and surrounded by any ASCII white space *)
  forall (n : nat) (before after : text), let blank := Forall (fun c => In c [" "; "009"; "010"; "011"; "012"; "013"; "028"; "029"; "030"; "031"]%char) in blank before -> blank after ->
    py_int (before ++ fmt_nat n ++ after) = Ok (Z.of_nat n) /\ py_int (before ++ ("+"%char :: fmt_nat n) ++ after) = Ok (Z.of_nat n) /\ py_int (before ++ ("-"%char :: fmt_nat n) ++ after) = Ok (- Z.of_nat n) /\ py_int before = Err ValueError.
Proof. exact C38_numbers_proof. Qed.
Print Assumptions C38_numbers.

Theorem C38_numbers_only :
(* nothing else is accepted: a text (without "_") is a number only if it is a nonempty sequence of digits, possibly signed and
     surrounded by white space.  A sign alone, two signs, a letter or a blank inside a number raise ValueError *)
  forall (s : text), ~ In "_"%char s -> let blank := Forall (fun c => In c [" "; "009"; "010"; "011"; "012"; "013"; "028"; "029"; "030"; "031"]%char) in
    (exists z, py_int s = Ok z /\ exists before sign ds after, s = before ++ sign ++ ds ++ after /\ blank before /\ blank after /\ In sign [[]; ["-"%char]; ["+"%char]] /\ ds <> [] /\ Forall (fun c => In c ["0"; "1"; "2"; "3"; "4"; "5"; "6"; "7"; "8"; "9"]%char) ds) \/
    py_int s = Err ValueError.
Proof. exact C38_numbers_only_proof. Qed.
Print Assumptions C38_numbers_only.
Example C38_numbers_only_witness : py_int [" "; "-"; "4"; "2"; "010"]%char = Ok (-42) /\ py_int ["-"]%char = Err ValueError /\ py_int ["1"; " "; "2"]%char = Err ValueError /\ py_int ["+"; "-"; "2"]%char = Err ValueError.
Proof. repeat split; vm_compute; reflexivity. Qed.

Theorem C38_no_overwrite :
forall (H : arr2) (path : string) (fs : fsys) (contents : text), lookup path fs = Some contents -> write_ldpc_params H path fs = (fs, Err FileExistsError).
Proof. exact C38_no_overwrite_proof. Qed.
Print Assumptions C38_no_overwrite.

Theorem C38_zero_line :
(* a zero row or column: IndexError, and a truncated file stays behind, so that a second attempt raises FileExistsError *)
  forall (H : arr2) (path : string) (fs : fsys), binary H -> (1 <= length (a_rows H))%nat -> (1 <= a_cols H)%nat -> ~ (no_zero_row H /\ no_zero_column H) -> lookup path fs = None ->
    exists (fs' : fsys) (contents : text), write_ldpc_params H path fs = (fs', Err IndexError) /\ lookup path fs' = Some contents /\
      forall H' : arr2, write_ldpc_params H' path fs' = (fs', Err FileExistsError).
Proof. exact C38_zero_line_proof. Qed.
Print Assumptions C38_zero_line.
Example C38_zero_witness : let H := {| a_cols := 2; a_rows := [[1; 1]; [0; 0]] |} in binary H /\ ~ no_zero_row H /\ snd (write_ldpc_params H "f" []) = Err IndexError.
Proof. cbv zeta. split; [apply binaryb_ok; vm_compute; reflexivity|]. split; [|vm_compute; reflexivity]. intros HZ. destruct (HZ 1%nat ltac:(cbn; lia)) as (j & Hj & Hne). apply Hne. cbn in Hj. destruct j as [|[|j]]; [reflexivity|reflexivity|lia]. Qed.

(* ---------------------------------------------------------------- C39 *)

Theorem C39_codeword :
(* for every interpretation of the arithmetic: a word whose hard decisions are codewords is returned as it is, whatever
     the algorithm (even an unknown name) and the iteration count; LLRs are returned clipped *)
  forall (o : numops) (p : ldpc) (H : arr2) (a : algorithm) (n_iters b : nat) (llr : list (num o)),
    binary H -> p_matrix p = Some H -> n_vnodes p = a_cols H -> (1 <= a_cols H)%nat -> (1 <= b)%nat -> length llr = (b * a_cols H)%nat ->
    let clipped := map (n_clip o) llr in
    Forall (fun block => satisfies H (map (fun x => Z.b2z (n_signbit o x)) block)) (chunks (a_cols H) b clipped) ->
    ldpc_bp_decode o llr p a n_iters = (clipped, p, Ok (map (fun block => (map (n_signbit o) block, block)) (chunks (a_cols H) b clipped))).
Proof. exact C39_codeword_proof. Qed.
Print Assumptions C39_codeword.
Example C39_witness : Forall (fun block => satisfies exH (map (fun x => Z.b2z (n_signbit real_ops x)) block)) (chunks 6 2 (map (n_clip real_ops) [-1; 2; -0.5; -3; 600; 1; 3; 4; 1; 2; 1; 0.1]%R)).
Proof.
  cbn [map chunks firstn skipn]. assert (N : forall x, (x < 0)%R -> n_signbit real_ops (n_clip real_ops x) = true).
  { intros x Hx. cbn [real_ops n_signbit n_clip num]. unfold negative, clip500, Rmax, Rmin. destruct (Rle_dec 500 x); [lra|]. destruct (Rle_dec (-500) x); destruct (Rlt_dec _ 0); try reflexivity; lra. }
  assert (P : forall x, (0 <= x)%R -> n_signbit real_ops (n_clip real_ops x) = false).
  { intros x Hx. cbn [real_ops n_signbit n_clip num]. unfold negative, clip500, Rmax, Rmin. destruct (Rle_dec 500 x); destruct (Rle_dec (-500) _); destruct (Rlt_dec _ 0); try reflexivity; lra. }
  repeat (constructor; cbn [map]).
  - rewrite !(P 2%R), !(P 600%R), !(P 1%R), (N (-1)%R), (N (-0.5)%R), (N (-3)%R) by lra. intros i Hi. cbn in Hi. do 3 (destruct i as [|i]; [vm_compute; reflexivity|]). lia.
  - rewrite !(P 3%R), !(P 4%R), !(P 1%R), !(P 2%R), (P 0.1%R) by lra. intros i Hi. cbn in Hi. do 3 (destruct i as [|i]; [vm_compute; reflexivity|]). lia.
Qed.

Theorem C39_stops_on_codewords :
(* a decoder output that is a codeword is final: more iterations return exactly the same word and LLRs *)
  forall (o : numops) (p : ldpc) (H : arr2) (a : algorithm) (n N b : nat) (llr : list (num o)) (out : list (list bool * list (num o))),
    binary H -> p_matrix p = Some H -> n_vnodes p = a_cols H -> (1 <= a_cols H)%nat -> (1 <= b)%nat -> length llr = (b * a_cols H)%nat -> (n <= N)%nat ->
    snd (ldpc_bp_decode o llr p a n) = Ok out -> Forall (fun d => satisfies H (map Z.b2z (fst d))) out ->
    snd (ldpc_bp_decode o llr p a N) = Ok out.
Proof. exact C39_stops_on_codewords_proof. Qed.
Print Assumptions C39_stops_on_codewords.

Theorem C39_decisions :
(* decisions are the signs of the returned LLRs, for every block *)
  forall (o : numops) (llr : list (num o)) (p : ldpc) (a : algorithm) (n : nat) (out : list (list bool * list (num o))),
    snd (ldpc_bp_decode o llr p a n) = Ok out -> Forall (fun d => fst d = map (n_signbit o) (snd d)) out.
Proof. exact C39_decisions_proof. Qed.
Print Assumptions C39_decisions.

Theorem C39_clips_in_place :
(* the caller's array is clipped, even when the call raises *)
  forall (o : numops) (llr : list (num o)) (p : ldpc) (a : algorithm) (n : nat), fst (fst (ldpc_bp_decode o llr p a n)) = map (n_clip o) llr.
Proof. exact C39_clips_in_place_proof. Qed.
Print Assumptions C39_clips_in_place.

Theorem C39_errors :
(* an unknown algorithm name is only reported when an iteration is needed; min-sum cannot treat checks of degree one *)
  forall (o : numops) (p : ldpc) (H : arr2) (n : nat) (llr : list (num o)),
    binary H -> p_matrix p = Some H -> n_vnodes p = a_cols H -> (1 <= a_cols H)%nat -> length llr = a_cols H ->
    ~ satisfies H (map (fun x => Z.b2z (n_signbit o (n_clip o x))) llr) ->
    snd (ldpc_bp_decode o llr p OtherName (S n)) = Err NameError /\
    (Exists (fun r => length (nonzero r) = 1%nat) (a_rows H) -> snd (ldpc_bp_decode o llr p MSA (S n)) = Err ValueError).
Proof. exact C39_errors_proof. Qed.
Print Assumptions C39_errors.

Theorem C39_belief_propagation :
(* over the reals, one block: the decoder runs textbook belief propagation until the hard decisions form a codeword or the
     iterations are used up.  Min-sum needs checks of degree two at least; sum-product divides by tanh of the messages, so
     no message may be zero.  [spa_rule] is the exact log-likelihood ratio of the parity of the other bits. *)
  forall (p : ldpc) (H : arr2) (a : algorithm) (N : nat) (llr : list R),
    binary H -> p_matrix p = Some H -> n_vnodes p = a_cols H -> (1 <= a_cols H)%nat -> length llr = a_cols H ->
    let L := fun v => clip500 (nth v llr 0%R) in
    let rule := match a with SPA => spa_rule | _ => msa_rule end in
    (a = MSA /\ (forall c, (c < length (a_rows H))%nat -> (2 <= length (vars_of H c))%nat) \/
     a = SPA /\ (forall t c v, (t < N)%nat -> (c < length (a_rows H))%nat -> In v (vars_of H c) -> to_check H spa_rule L t c v <> 0%R)) ->
    exists T : nat, (T <= N)%nat /\
      snd (ldpc_bp_decode real_ops llr p a N) = Ok [(hard H rule L T, map (belief H rule L T) (seq 0 (a_cols H)))] /\
      (forall u, (u < T)%nat -> ~ satisfies H (map Z.b2z (hard H rule L u))) /\
      (T = N \/ satisfies H (map Z.b2z (hard H rule L T))).
Proof. exact C39_belief_propagation_proof. Qed.
Print Assumptions C39_belief_propagation.
(* min-sum: every check of exH involves three variables or more, and the word below is not a codeword *)
Example C39_bp_witness : (forall c, (c < length (a_rows exH))%nat -> (2 <= length (vars_of exH c))%nat) /\ ~ satisfies exH [1; 0; 0; 0; 0; 0] /\
  (to_check exH spa_rule (fun v => clip500 (nth v [-1; 2; 2; 3; 1; 1]%R 0%R)) 0 0 0 <> 0)%R.
Proof.
  split; [intros c Hc; cbn in Hc; destruct c as [|[|[|c]]]; [vm_compute; lia|vm_compute; lia|vm_compute; lia|lia]|]. split; [intros Hs; specialize (Hs 0%nat ltac:(cbn; lia)); vm_compute in Hs; discriminate|].
  cbn [to_check nth]. unfold clip500. rewrite Rmin_right, Rmax_right by lra. lra.
Qed.

Theorem C39_tanh_rule :
(* the sum-product message 2 atanh (prod tanh (l / 2)) is the log-likelihood ratio of the parity of independent bits *)
  forall ls : list R, ls <> [] ->
    let d := fold_right Rmult 1%R (map (fun l => tanh (l / 2)) ls) in
    (-1 < d < 1)%R /\ ln ((1 + d) / (1 - d)) = ln (parity_prob ls 0 / parity_prob ls 1).
Proof. exact C39_tanh_rule_proof. Qed.
Print Assumptions C39_tanh_rule.

Theorem C39_singular_code :
(* with a singular systematic part the first call raises RuntimeError, the same call repeated decodes *)
  forall (o : numops) (p : ldpc) (H : arr2) (a : algorithm) (n : nat) (llr : list (num o)),
    describes p H -> p_matrix p = None -> (2 <= length (a_rows H) <= a_cols H)%nat -> singular H ->
    exists p' : ldpc, ldpc_bp_decode o llr p a n = (map (n_clip o) llr, p', Err RuntimeError) /\ p_matrix p' = Some H /\ n_vnodes p' = a_cols H.
Proof. exact C39_singular_code_proof. Qed.
Print Assumptions C39_singular_code.

(* ---------------------------------------------------------------- C40 *)

Theorem C40_blocks_independent :
(* decoding a concatenation of whole blocks is decoding its parts, exceptions included *)
  forall (o : numops) (p : ldpc) (H : arr2) (a : algorithm) (n b1 b2 : nat) (l1 l2 : list (num o)),
    p_matrix p = Some H -> n_vnodes p = a_cols H -> (1 <= a_cols H)%nat -> (1 <= b1)%nat -> (1 <= b2)%nat -> length l1 = (b1 * a_cols H)%nat -> length l2 = (b2 * a_cols H)%nat ->
    snd (ldpc_bp_decode o (l1 ++ l2) p a n) =
      (r1 <- snd (ldpc_bp_decode o l1 p a n) ;; r2 <- snd (ldpc_bp_decode o l2 p a n) ;; Ok (r1 ++ r2)) /\
    fst (ldpc_bp_decode o (l1 ++ l2) p a n) = (fst (fst (ldpc_bp_decode o l1 p a n)) ++ fst (fst (ldpc_bp_decode o l2 p a n)), p).
Proof. exact C40_blocks_independent_proof. Qed.
Print Assumptions C40_blocks_independent.

Theorem C40_shapes :
(* a length that is not a positive multiple of the block length is rejected *)
  forall (o : numops) (p : ldpc) (H : arr2) (a : algorithm) (n : nat) (llr : list (num o)),
    p_matrix p = Some H -> (1 <= n_vnodes p)%nat -> llr = [] \/ (length llr mod n_vnodes p <> 0)%nat -> snd (ldpc_bp_decode o llr p a n) = Err ValueError.
Proof. exact C40_shapes_proof. Qed.
Print Assumptions C40_shapes.
Example C40_witness : p_matrix (set_matrix exP exH) = Some exH /\ n_vnodes (set_matrix exP exH) = a_cols exH /\ length (repeat 1%R 12) = (2 * a_cols exH)%nat.
Proof. repeat split. Qed.

(* ---------------------------------------------------------------- C67 *)

Theorem C67_sum_product :
(* parity-check graph a tree, every check with two variables at least, no saturation, no zero message: when the t + 1
     iterations that reach the whole tree are used, the returned LLRs are the exact ones, computed over all codewords, and
     the decisions are bitwise maximum a posteriori; else an earlier iteration ended on a codeword *)
  forall (p : ldpc) (H : arr2) (t : nat) (llr : list R),
    binary H -> p_matrix p = Some H -> n_vnodes p = a_cols H -> (1 <= a_cols H)%nat -> length llr = a_cols H ->
    (forall c, (c < length (a_rows H))%nat -> (2 <= length (vars_of H c))%nat) -> tree H t -> (total Rabs llr <= 500)%R ->
    (forall u c v, (u <= t)%nat -> (c < length (a_rows H))%nat -> In v (vars_of H c) -> to_check H spa_rule (fun v => nth v llr 0%R) u c v <> 0%R) ->
    exists (word : list bool) (beliefs : list R), length word = a_cols H /\ length beliefs = a_cols H /\
      snd (ldpc_bp_decode real_ops llr p SPA (S t)) = Ok [(word, beliefs)] /\
      (satisfies H (map Z.b2z word) /\ snd (ldpc_bp_decode real_ops llr p SPA t) = Ok [(word, beliefs)] \/
       forall v, (v < a_cols H)%nat ->
         let P b := total (weight llr) (codewords H v b) in
         (0 < P 0%Z /\ 0 < P 1%Z /\ nth v beliefs 0 = ln (P 0%Z / P 1%Z) /\ (nth v word false = true <-> P 0%Z < P 1%Z))%R).
Proof. exact C67_sum_product_proof. Qed.
Print Assumptions C67_sum_product.
(* two checks sharing one variable *)
Definition exT : arr2 := {| a_cols := 5; a_rows := [[1; 1; 1; 0; 0]; [0; 0; 1; 1; 1]] |}.
Definition exTl : list R := [-1; 2; 3; 1; 1]%R.
Lemma exT_tree : tree exT 1.
Proof.
  assert (G : forall l n, (if list_eq_dec Nat.eq_dec (nodup Nat.eq_dec l) l then forallb (fun x => (x <? n)%nat) l && (n <=? length l)%nat else false)%bool = true -> Permutation l (seq 0 n)).
  { intros l n Hb. destruct (list_eq_dec Nat.eq_dec (nodup Nat.eq_dec l) l) as [E|]; [|discriminate]. apply andb_prop in Hb. destruct Hb as [Hf Hn]. apply NoDup_Permutation_bis.
    - rewrite <- E. apply NoDup_nodup.
    - rewrite seq_length. apply Nat.leb_le in Hn. exact Hn.
    - intros x Hx. apply in_seq. rewrite forallb_forall in Hf. specialize (Hf x Hx). apply Nat.ltb_lt in Hf. lia. }
  intros v Hv. cbn in Hv. do 5 (destruct v as [|v]; [split; apply G; vm_compute; reflexivity|]). lia.
Qed.
Example C67_witness : binary exT /\ tree exT 1 /\ (forall c, (c < length (a_rows exT))%nat -> (2 <= length (vars_of exT c))%nat) /\ (total Rabs exTl <= 500)%R /\
  (forall u c v, (u <= 1)%nat -> (c < length (a_rows exT))%nat -> In v (vars_of exT c) -> to_check exT spa_rule (fun v => nth v exTl 0%R) u c v <> 0%R) /\
  ~ satisfies exT (map (fun l => Z.b2z (negative l)) exTl).
Proof.
  split; [split; [repeat constructor|repeat constructor; (left; reflexivity) || (right; reflexivity)]|]. split; [exact exT_tree|]. split; [intros c Hc; cbn in Hc; destruct c as [|[|c]]; [vm_compute; lia|vm_compute; lia|lia]|].
  assert (HN : forall x, Rabs x = x \/ Rabs x = (- x)%R) by (intros x; unfold Rabs; destruct (Rcase_abs x); auto).
  split; [unfold exTl, total; cbn [map fold_right]; rewrite (Rabs_left (-1)), !Rabs_right by lra; lra|].
  assert (B : forall x y, (Rabs x <= 2)%R -> (-2 <= spa_rule [x; y] <= 2)%R).
  { intros x y Hx. assert (Hp : (Rabs (plain_rule [x; y]) <= 2)%R) by (eapply Rle_trans; [apply plain_bound|exact Hx]).
    rewrite spa_plain by (try discriminate; lra). pose proof (Rle_abs (plain_rule [x; y])). pose proof (Rle_abs (- plain_rule [x; y])). rewrite Rabs_Ropp in *. lra. }
  assert (A1 : forall x, (-2 <= x <= 2 -> Rabs x <= 2)%R) by (intros x Hx; apply Rabs_le; lra).
  split.
  - intros u c v Hu Hc Hv. change (length (a_rows exT)) with 2%nat in Hc.
    assert (EV : vars_of exT 0 = [0; 1; 2]%nat /\ vars_of exT 1 = [2; 3; 4]%nat) by (split; vm_compute; reflexivity). destruct EV as [V0 V1].
    assert (EC : checks_of exT 0 = [0%nat] /\ checks_of exT 1 = [0%nat] /\ checks_of exT 2 = [0; 1]%nat /\ checks_of exT 3 = [1%nat] /\ checks_of exT 4 = [1%nat]) by (repeat split; vm_compute; reflexivity). destruct EC as (C0 & C1 & C2 & C3 & C4).
    destruct u as [|[|u]]; [| |lia].
    + cbn [to_check]. destruct c as [|[|c]]; [rewrite V0 in Hv|rewrite V1 in Hv|lia]; cbn [In] in Hv; destruct Hv as [<-|[<-|[<-|[]]]]; cbn [nth exTl]; lra.
    + cbn [to_check]. unfold posterior. destruct c as [|[|c]]; [rewrite V0 in Hv|rewrite V1 in Hv|lia]; cbn [In] in Hv; destruct Hv as [<-|[<-|[<-|[]]]];
        rewrite ?C0, ?C1, ?C2, ?C3, ?C4; unfold total; cbn [map fold_right]; unfold to_var; rewrite ?V0, ?V1; cbn [filter Nat.eqb negb map to_check nth exTl].
      * lra.
      * lra.
      * pose proof (B 1%R 1%R ltac:(apply A1; lra)). lra.
      * pose proof (B (-1)%R 2%R ltac:(apply A1; lra)). lra.
      * lra.
      * lra.
  - intros Hs. specialize (Hs 0%nat ltac:(cbn; lia)). unfold exTl, negative in Hs. cbn [map] in Hs. destruct (Rlt_dec (-1) 0); [|lra]. destruct (Rlt_dec 2 0); [lra|]. destruct (Rlt_dec 3 0); [lra|]. destruct (Rlt_dec 1 0); [lra|]. vm_compute in Hs. discriminate.
Qed.

Theorem C67_min_sum :
(* min-sum on a tree: every returned LLR is the least cost of the codewords with a 1 at that place minus the least cost
     of those with a 0; if one codeword is cheaper than all others, it is the one returned *)
  forall (p : ldpc) (H : arr2) (t : nat) (llr : list R),
    binary H -> p_matrix p = Some H -> n_vnodes p = a_cols H -> (1 <= a_cols H)%nat -> length llr = a_cols H ->
    (forall c, (c < length (a_rows H))%nat -> (2 <= length (vars_of H c))%nat) -> tree H t ->
    let ls := map clip500 llr in
    exists (word : list bool) (beliefs : list R), length word = a_cols H /\ length beliefs = a_cols H /\
      snd (ldpc_bp_decode real_ops llr p MSA (S t)) = Ok [(word, beliefs)] /\
      (satisfies H (map Z.b2z word) /\ snd (ldpc_bp_decode real_ops llr p MSA t) = Ok [(word, beliefs)] \/
       (forall v, (v < a_cols H)%nat -> exists c0 c1 : R,
          least_cost ls (codewords H v 0) c0 /\ least_cost ls (codewords H v 1) c1 /\ nth v beliefs 0%R = (c1 - c0)%R) /\
       (forall x : list Z, length x = a_cols H -> bits x -> satisfies H x ->
          (forall y : list Z, length y = a_cols H -> bits y -> satisfies H y -> y <> x -> (cost ls x < cost ls y)%R) ->
          map Z.b2z word = x)).
Proof. exact C67_min_sum_proof. Qed.
Print Assumptions C67_min_sum.

(* ---------------------------------------------------------------- C71 *)

Theorem C71_codeword_symmetry :
(* inverting the received values at the ones of a codeword x inverts the decoder's output there: the quality of the
     decoder does not depend on the transmitted codeword.  The iterations of the first decoding must not meet an LLR of
     exactly zero (whose decision, 0, cannot be inverted). *)
  forall (p : ldpc) (H : arr2) (a : algorithm) (N : nat) (llr : list R) (x : list Z),
    binary H -> p_matrix p = Some H -> n_vnodes p = a_cols H -> (1 <= a_cols H)%nat -> length llr = a_cols H ->
    length x = a_cols H -> bits x -> satisfies H x ->
    (a = MSA /\ (forall c, (c < length (a_rows H))%nat -> (2 <= length (vars_of H c))%nat) \/
     a = SPA /\ (forall t c v, (t < N)%nat -> (c < length (a_rows H))%nat -> In v (vars_of H c) -> to_check H spa_rule (fun v => clip500 (nth v llr 0%R)) t c v <> 0%R)) ->
    (forall (k : nat) (w : list bool) (b : list R), (k <= N)%nat -> snd (ldpc_bp_decode real_ops llr p a k) = Ok [(w, b)] -> Forall (fun l => l <> 0%R) b) ->
    exists (word : list bool) (beliefs : list R),
      snd (ldpc_bp_decode real_ops llr p a N) = Ok [(word, beliefs)] /\
      snd (ldpc_bp_decode real_ops (flip_signs x llr) p a N) = Ok [(flip_bits x word, flip_signs x beliefs)].
Proof. exact C71_codeword_symmetry_proof. Qed.
Print Assumptions C71_codeword_symmetry.
(* one iteration on the tree code: the received word is no codeword, the decoder returns the zero word; with the codeword
   11011 instead of 00000 sent, it returns that codeword *)
Definition exTp : ldpc := {| n_vnodes := 5; n_cnodes := 2; max_vdeg := 2; max_cdeg := 3; v_adj := []; c_adj := []; c_map := []; v_map := []; v_deg := []; c_deg := []; p_matrix := Some exT; p_gen := None |}.
Lemma exT_deg : forall c, (c < length (a_rows exT))%nat -> (2 <= length (vars_of exT c))%nat.
Proof. intros c Hc. cbn in Hc. destruct c as [|[|c]]; [vm_compute; lia|vm_compute; lia|lia]. Qed.
Lemma exT_beliefs : map (belief exT msa_rule (fun v => clip500 (nth v exTl 0%R)) 1) (seq 0 5) = [1; 1; 3; 2; 2]%R.
Proof.
  assert (C : forall x, (-500 <= x <= 500)%R -> clip500 x = x) by (intros x Hx; unfold clip500; rewrite Rmin_right, Rmax_right by lra; reflexivity).
  assert (EV : vars_of exT 0 = [0; 1; 2]%nat /\ vars_of exT 1 = [2; 3; 4]%nat) by (split; vm_compute; reflexivity). destruct EV as [V0 V1].
  assert (EC : checks_of exT 0 = [0%nat] /\ checks_of exT 1 = [0%nat] /\ checks_of exT 2 = [0; 1]%nat /\ checks_of exT 3 = [1%nat] /\ checks_of exT 4 = [1%nat]) by (repeat split; vm_compute; reflexivity). destruct EC as (C0 & C1 & C2 & C3 & C4).
  assert (M : forall x y, (0 < y)%R -> (x <= y)%R -> (- y <= x)%R -> x <> 0%R -> msa_rule [x; y] = x /\ msa_rule [y; x] = x).
  { intros x y Hy Hxy Hyx Hx. unfold msa_rule. cbn [map prodR fold_right min_abs fold_left]. unfold signR. destruct (Rlt_dec 0 y); [|lra]. rewrite (Rabs_right y) by lra.
    destruct (Rlt_dec 0 x); [rewrite (Rabs_right x) by lra|destruct (Rlt_dec x 0); [rewrite (Rabs_left x) by lra|lra]]; rewrite Rmin_left, Rmin_right by lra; lra. }
  cbn [seq map belief]. unfold posterior. rewrite C0, C1, C2, C3, C4. unfold total. cbn [map fold_right]. unfold to_var. rewrite V0, V1. cbn [filter Nat.eqb negb map to_check nth exTl]. rewrite !C by lra.
  destruct (M 2 3)%R as [E1 _]; try lra. destruct (M (-1) 3)%R as [E2 _]; try lra. destruct (M (-1) 2)%R as [E3 _]; try lra. destruct (M 1 1)%R as [E4 _]; try lra. destruct (M 1 3)%R as [_ E5]; try lra.
  rewrite E1, E2, E3, E4, E5. repeat f_equal; lra.
Qed.
Example C71_witness : binary exT /\ p_matrix exTp = Some exT /\ length exTl = a_cols exT /\ bits [1; 1; 0; 1; 1] /\ satisfies exT [1; 1; 0; 1; 1] /\
  (forall k w b, (k <= 1)%nat -> snd (ldpc_bp_decode real_ops exTl exTp MSA k) = Ok [(w, b)] -> Forall (fun l => l <> 0%R) b) /\
  ~ satisfies exT (map (fun l => Z.b2z (negative l)) exTl) /\ snd (ldpc_bp_decode real_ops exTl exTp MSA 1) = Ok [(repeat false 5, [1; 1; 3; 2; 2]%R)] /\
  Forall (fun l => Rabs l <= 500 /\ Rabs (2 * l) <= 500)%R exTl.
Proof.
  assert (HB : binary exT) by (split; [repeat constructor|repeat constructor; (left; reflexivity) || (right; reflexivity)]).
  assert (EL : map (fun v => clip500 (nth v exTl 0%R)) (seq 0 5) = exTl) by (unfold exTl, clip500; cbn [seq map nth]; rewrite !Rmin_right, !Rmax_right by lra; reflexivity).
  assert (HS : ~ satisfies exT (map (fun l => Z.b2z (negative l)) exTl)) by (exact (proj2 (proj2 (proj2 (proj2 (proj2 C67_witness)))))).
  assert (HD : forall k T, (T <= k)%nat -> (k <= 1)%nat -> map (belief exT msa_rule (fun v => clip500 (nth v exTl 0%R)) T) (seq 0 5) = if (T =? 0)%nat then exTl else [1; 1; 3; 2; 2]%R).
  { intros k T HT Hk. destruct T as [|[|T]]; [exact EL|exact exT_beliefs|lia]. }
  split; [exact HB|]. split; [reflexivity|]. split; [reflexivity|]. split; [repeat constructor; (left; reflexivity) || (right; reflexivity)|]. split; [intros i Hi; cbn in Hi; destruct i as [|[|i]]; [reflexivity|reflexivity|lia]|].
  split; [|split; [exact HS|split]].
  - intros k w b Hk E. destruct (C39_belief_propagation exTp exT MSA k exTl HB eq_refl eq_refl ltac:(cbn; lia) eq_refl (or_introl (conj eq_refl exT_deg))) as (T & HT & E' & _). rewrite E' in E. assert (Eb : b = map (belief exT msa_rule (fun v => clip500 (nth v exTl 0%R)) T) (seq 0 (a_cols exT))) by congruence. rewrite Eb. change (a_cols exT) with 5%nat. rewrite (HD k T HT Hk). destruct (T =? 0)%nat; unfold exTl; repeat constructor; lra.
  - destruct (C39_belief_propagation exTp exT MSA 1 exTl HB eq_refl eq_refl ltac:(cbn; lia) eq_refl (or_introl (conj eq_refl exT_deg))) as (T & HT & E' & _ & HE). rewrite E'. assert (T = 1%nat) as ->.
    { destruct HE as [HE|HE]; [exact HE|]. destruct T as [|[|T]]; [|reflexivity|lia]. exfalso. apply HS. unfold hard in HE. rewrite <- EL, map_map. rewrite map_map in HE. exact HE. }
    change (a_cols exT) with 5%nat. rewrite exT_beliefs. unfold hard. rewrite <- (map_map (belief exT msa_rule (fun v => clip500 (nth v exTl 0%R)) 1) negative). change (a_cols exT) with 5%nat. rewrite exT_beliefs. cbn [map repeat]. unfold negative. destruct (Rlt_dec 1 0); [lra|]. destruct (Rlt_dec 2 0); [lra|]. destruct (Rlt_dec 3 0); [lra|]. reflexivity.
  - unfold exTl. do 5 (apply Forall_cons; [split; apply Rabs_le; lra|]). apply Forall_nil.
Qed.

Theorem C71_min_sum_scale :
(* min-sum needs no estimate of the noise: LLRs multiplied by a positive factor, both below the clipping level, give the
     same word, and LLRs multiplied by the same factor *)
  forall (p : ldpc) (H : arr2) (N : nat) (llr : list R) (k : R),
    binary H -> p_matrix p = Some H -> n_vnodes p = a_cols H -> (1 <= a_cols H)%nat -> length llr = a_cols H ->
    (forall c, (c < length (a_rows H))%nat -> (2 <= length (vars_of H c))%nat) ->
    (0 < k)%R -> Forall (fun l => Rabs l <= 500 /\ Rabs (k * l) <= 500)%R llr ->
    exists (word : list bool) (beliefs : list R),
      snd (ldpc_bp_decode real_ops llr p MSA N) = Ok [(word, beliefs)] /\
      snd (ldpc_bp_decode real_ops (map (fun l => k * l)%R llr) p MSA N) = Ok [(word, map (fun l => k * l)%R beliefs)].
Proof. exact C71_min_sum_scale_proof. Qed.
Print Assumptions C71_min_sum_scale.

(* ---------------------------------------------------------------- C72 *)

Theorem C72_errors :
(* hard-decision input (all received magnitudes equal), no two variables in two common checks, every check with two
     variables at least: up to half the least column weight errors are corrected, by the first iteration *)
  forall (p : ldpc) (H : arr2) (N : nat) (llr : list R) (x : list Z) (A : R),
    binary H -> p_matrix p = Some H -> n_vnodes p = a_cols H -> (1 <= a_cols H)%nat -> length llr = a_cols H ->
    (forall c, (c < length (a_rows H))%nat -> (2 <= length (vars_of H c))%nat) ->
    (forall v w, (v < a_cols H)%nat -> (w < a_cols H)%nat -> v <> w -> (common_checks H v w <= 1)%nat) ->
    length x = a_cols H -> bits x -> satisfies H x ->
    (0 < A)%R -> Forall (fun l => Rabs l = A) llr -> (1 <= N)%nat ->
    (forall v, (v < a_cols H)%nat -> (2 * length (errors x llr) <= length (checks_of H v))%nat) ->
    exists beliefs : list R, snd (ldpc_bp_decode real_ops llr p MSA N) = Ok [(map (fun b => b =? 1) x, beliefs)].
Proof. exact C72_errors_proof. Qed.
Print Assumptions C72_errors.
(* variables are the edges of the complete graph on four vertices, checks its vertices: every variable is in two checks *)
Definition exK : arr2 := {| a_cols := 6; a_rows := [[1; 1; 1; 0; 0; 0]; [1; 0; 0; 1; 1; 0]; [0; 1; 0; 1; 0; 1]; [0; 0; 1; 0; 1; 1]] |}.
Definition exKx : list Z := [1; 1; 0; 1; 0; 0].
Lemma exK_code : binary exK /\ (forall c, (c < length (a_rows exK))%nat -> (2 <= length (vars_of exK c))%nat) /\ length exKx = a_cols exK /\ bits exKx /\ satisfies exK exKx.
Proof.
  split; [apply binaryb_ok; vm_compute; reflexivity|]. split; [intros c Hc; cbn in Hc; do 4 (destruct c as [|c]; [vm_compute; lia|]); lia|]. split; [reflexivity|].
  split; [repeat constructor; (left; reflexivity) || (right; reflexivity)|]. intros i Hi. cbn in Hi. do 4 (destruct i as [|i]; [reflexivity|]). lia.
Qed.
Definition exKr : list R := [2; -2; 2; -2; 2; 2]%R.
Example C72_errors_witness : (forall v w, (v < a_cols exK)%nat -> (w < a_cols exK)%nat -> v <> w -> (common_checks exK v w <= 1)%nat) /\
  Forall (fun l => Rabs l = 2%R) exKr /\ errors exKx exKr = [0%nat] /\ (forall v, (v < a_cols exK)%nat -> (2 * length (errors exKx exKr) <= length (checks_of exK v))%nat).
Proof.
  assert (EE : errors exKx exKr = [0%nat]).
  { assert (N1 : negative 2 = false) by (unfold negative; destruct (Rlt_dec 2 0); [lra|reflexivity]). assert (N2 : negative (-2) = true) by (unfold negative; destruct (Rlt_dec (-2) 0); [reflexivity|lra]).
    unfold errors, exKx, exKr. cbn [length seq filter nth]. rewrite N1, N2. reflexivity. }
  split; [|split; [|split; [exact EE|]]].
  - intros v w Hv Hw Hne. cbn in Hv, Hw. do 6 (destruct v as [|v]; [do 6 (destruct w as [|w]; [first [exfalso; apply Hne; reflexivity | vm_compute; lia]|]); lia|]). lia.
  - unfold exKr. do 6 (apply Forall_cons; [unfold Rabs; destruct (Rcase_abs _); lra|]). apply Forall_nil.
  - rewrite EE. intros v Hv. cbn in Hv. do 6 (destruct v as [|v]; [vm_compute; lia|]). lia.
Qed.

Theorem C72_erasures :
(* erasures received as LLR 0, no errors elsewhere: if the erased positions contain no stopping set and there are as many
     iterations as erasures, the codeword is recovered *)
  forall (p : ldpc) (H : arr2) (N : nat) (llr : list R) (x : list Z),
    binary H -> p_matrix p = Some H -> n_vnodes p = a_cols H -> (1 <= a_cols H)%nat -> length llr = a_cols H ->
    (forall c, (c < length (a_rows H))%nat -> (2 <= length (vars_of H c))%nat) ->
    length x = a_cols H -> bits x -> satisfies H x ->
    (forall v, (v < a_cols H)%nat -> nth v llr 0%R <> 0%R -> negative (nth v llr 0%R) = (nth v x 0 =? 1)) ->
    (forall S : nat -> bool, (forall v, S v = true -> erased llr v) -> stopping_set H S -> forall v, S v = false) ->
    (count_occ Req_EM_T llr 0%R <= N)%nat ->
    exists beliefs : list R, snd (ldpc_bp_decode real_ops llr p MSA N) = Ok [(map (fun b => b =? 1) x, beliefs)].
Proof. exact C72_erasures_proof. Qed.
Print Assumptions C72_erasures.
(* three edges of one vertex erased *)
Definition exKe : list R := [0; 0; 0; -1; 2; 3]%R.
Example C72_erasures_witness : (forall v, (v < a_cols exK)%nat -> nth v exKe 0%R <> 0%R -> negative (nth v exKe 0%R) = (nth v exKx 0 =? 1)) /\
  (forall S : nat -> bool, (forall v, S v = true -> erased exKe v) -> stopping_set exK S -> forall v, S v = false) /\ count_occ Req_EM_T exKe 0%R = 3%nat.
Proof.
  split; [|split].
  - intros v Hv Hz. cbn in Hv. unfold exKe, exKx, negative in *. do 6 (destruct v as [|v]; [cbn [nth] in *; destruct (Rlt_dec _ 0); try reflexivity; exfalso; lra|]). lia.
  - intros S HS HT. assert (F : forall v, (3 <= v)%nat -> S v = false).
    { intros v Hv. destruct (S v) eqn:E; [|reflexivity]. exfalso. destruct (HS v E) as [Hl E0]. unfold exKe in *. cbn [length] in Hl. do 3 (destruct v as [|v]; [lia|]). do 3 (destruct v as [|v]; [cbn [nth] in E0; lra|]). lia. }
    assert (V1 : vars_of exK 1 = [0; 3; 4]%nat) by (vm_compute; reflexivity). assert (V2 : vars_of exK 2 = [1; 3; 5]%nat) by (vm_compute; reflexivity). assert (V3 : vars_of exK 3 = [2; 4; 5]%nat) by (vm_compute; reflexivity).
    pose proof (HT 1%nat ltac:(cbn; lia)) as T1. pose proof (HT 2%nat ltac:(cbn; lia)) as T2. pose proof (HT 3%nat ltac:(cbn; lia)) as T3. rewrite V1 in T1. rewrite V2 in T2. rewrite V3 in T3. cbn [filter] in T1, T2, T3. rewrite !(F 3%nat), !(F 4%nat), ?(F 5%nat) in * by lia.
    intros v. destruct v as [|[|[|v]]]; [destruct (S 0%nat)|destruct (S 1%nat)|destruct (S 2%nat)|apply F; lia]; try reflexivity; exfalso; cbn [length] in *; lia.
  - unfold exKe. cbn [count_occ]. repeat (destruct (Req_EM_T _ 0); try lra). reflexivity.
Qed.

Theorem C72_stopping_sets :
(* conversely, the positions of an erased stopping set are never resolved, whatever was received elsewhere: their LLR
     stays 0 and their bit 0 *)
  forall (p : ldpc) (H : arr2) (N : nat) (llr : list R) (S : nat -> bool) (word : list bool) (beliefs : list R),
    binary H -> p_matrix p = Some H -> n_vnodes p = a_cols H -> (1 <= a_cols H)%nat -> length llr = a_cols H ->
    (forall c, (c < length (a_rows H))%nat -> (2 <= length (vars_of H c))%nat) ->
    (forall v, S v = true -> erased llr v) -> stopping_set H S ->
    snd (ldpc_bp_decode real_ops llr p MSA N) = Ok [(word, beliefs)] ->
    forall v, S v = true -> nth v beliefs 1%R = 0%R /\ nth v word true = false.
Proof. exact C72_stopping_sets_proof. Qed.
Print Assumptions C72_stopping_sets.
(* three edges forming a triangle *)
Example C72_stopping_witness : let S := fun v => existsb (Nat.eqb v) [0; 1; 3]%nat in (forall v, S v = true -> erased [0; 0; 2; 0; 2; 2]%R v) /\ stopping_set exK S.
Proof.
  cbv zeta. split.
  - intros v Hv. apply existsb_exists in Hv. destruct Hv as (u & Hu & E). apply Nat.eqb_eq in E. subst u. cbn [In] in Hu. destruct Hu as [<-|[<-|[<-|[]]]]; (split; [cbn; lia|reflexivity]).
  - intros c Hc. cbn in Hc. do 4 (destruct c as [|c]; [vm_compute; lia|]). lia.
Qed.
