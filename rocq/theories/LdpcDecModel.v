(* Model of /repo/commpy/channelcoding/ldpc.py, part 2: ldpc_bp_decode (lines 144-254).
   The decoder is modelled over an arbitrary number type with arbitrary elementary operations [numops]: theorems proved
   for every [numops] hold in particular for IEEE doubles (infinities, NaN and -0.0 included). *)
From Verif Require Import Base LdpcModel.

Record numops := {
  num : Type;
  n_zero : num;                       (* filler for out-of-range reads in the model; never observed *)
  n_clip : num -> num;                (* x.clip(-500, 500) *)
  n_signbit : num -> bool;            (* np.signbit *)
  n_add : num -> num -> num;
  n_neg : num -> num;                 (* x * -1 *)
  n_sum : list num -> num;            (* the entries of one column summed by message_matrix.sum(0) *)
  (* sum-product *)
  n_half : num -> num;                (* x * .5 *)
  n_tanh : num -> num;
  n_prod : list num -> num;           (* exp2(sum(log2(complex(x)))).real over one row *)
  n_inv : num -> num;                 (* 1 / x *)
  n_mul : num -> num -> num;
  n_clip1 : num -> num;               (* x.clip(-1, 1) *)
  n_atanh : num -> num;
  n_double : num -> num;              (* x * 2 *)
  (* min-sum *)
  n_sign : num -> num;                (* np.sign *)
  n_prod_sign : list num -> num;      (* ndarray.prod() *)
  n_abs : num -> num;
  n_min : num -> num -> num           (* ndarray.min() folds this over the entries *)
}.

Inductive algorithm := SPA | MSA | OtherName.   (* the string decoder_algorithm *)

Section Decoder.
  Variable o : numops.
  Local Notation F := (num o).

  (* 199 and 245: parity_check_matrix.multiply(v): the stored entries, row by row; the stored entries of a parity-check matrix
     built by build_matrix are ones, and multiplying by 1.0 is the identity.  Messages are kept as one list per check
     node, aligned with the columns of the ones of its row. *)
  Definition spread (H : arr2) (v : list F) : list (list F) := map (fun r => map (fun j => nth j v (n_zero o)) (nonzero r)) (a_rows H).

  (* 205: np.all(H.multiply(dec).sum(1) % 2 == 0) *)
  Definition checks (H : arr2) (dec : list bool) : bool :=
    forallb (fun r => Zsum (map (fun j => Z.b2z (nth j dec false)) (nonzero r)) mod 2 =? 0) (a_rows H).

  (* 210-227 sum-product update of one row *)
  Definition spa_row (row : list F) : list F :=
    let t := map (fun x => n_tanh o (n_half o x)) row in
    let p := n_prod o t in
    map (fun x => n_clip o (n_double o (n_atanh o (n_clip1 o (n_mul o (n_inv o x) p))))) t.

  (* 229-238 min-sum update of one row: ndarray.min() of an empty array (check of degree 1) raises ValueError *)
  Definition others (row : list F) (j : nat) : list F := firstn j row ++ skipn (j + 1) row.
  Definition list_min (l : list F) : res F := match l with [] => Err ValueError | x :: l' => Ok (fold_left (n_min o) l' x) end.
  Definition msa_row (row : list F) : res (list F) :=
    mapM (fun j => let ot := others row j in m <- list_min (map (n_abs o) ot) ;; Ok (n_mul o (n_prod_sign o (map (n_sign o) ot)) m)) (seq 0 (length row)).

  (* 208-240 *)
  Definition check_update (a : algorithm) (rows : list (list F)) : res (list (list F)) :=
    match a with
    | SPA => Ok (map spa_row rows)
    | MSA => mapM msa_row rows
    | OtherName => Err NameError
    end.

  (* 243 msg_sum: the messages of column j, in row order *)
  Definition column_messages (H : arr2) (msgs : list (list F)) (j : nat) : list F :=
    flat_map (fun p => let '(r, ms) := p in map snd (filter (fun q => (fst q =? j)%nat) (combine (nonzero r) ms))) (combine (a_rows H) msgs).

  (* 199-248: the iterations on one block; state = (messages, decisions, output LLRs) *)
  Fixpoint iterate (H : arr2) (a : algorithm) (llr : list F) (n_iters : nat) (msgs : list (list F)) (dec : list bool) (out : list F) : res (list bool * list F) :=
    match n_iters with
    | O => Ok (dec, out)
    | S it =>
        if checks H dec then Ok (dec, out)
        else
          ms <- check_update a msgs ;;
          let post := map (fun j => n_add o (n_sum o (column_messages H ms j)) (nth j llr (n_zero o))) (seq 0 (a_cols H)) in
          (* 244-245: message = -message + (msg_sum + llr) *)
          let ms' := map (fun p => let '(r, row) := p in map (fun q => n_add o (n_neg o (snd q)) (nth (fst q) post (n_zero o))) (combine (nonzero r) row)) (combine (a_rows H) ms) in
          iterate H a llr it ms' (map (n_signbit o) post) post
    end.
  Definition decode_block (H : arr2) (a : algorithm) (n_iters : nat) (llr : list F) : res (list bool * list F) :=
    iterate H a llr n_iters (spread H llr) (map (n_signbit o) llr) llr.

  (* 144-254.  Result: (the array llr_vec after the call, the dictionary after the call, the blocks of (dec_word, out_llrs)).
     The returned 2-d arrays have one block per column; with one block squeeze() makes them 1-d.
     llr_vec is a float array (an int array would truncate out_llrs).
     A last block shorter than n_vnodes makes multiply raise ValueError (simplified: for a one-entry last block SciPy
     multiplies by a scalar instead); no block at all makes reshape(-1, 0) raise ValueError; n_vnodes = 0 makes range raise. *)
  Definition ldpc_bp_decode (llr_vec : list F) (p : ldpc) (a : algorithm) (n_iters : nat) : list F * ldpc * res (list (list bool * list F)) :=
    let llr := map (n_clip o) llr_vec in
    let '(p', r) := match p_matrix p with Some _ => (p, Ok tt) | None => build_matrix p end in
    (llr, p',
     _ <- r ;;
     match p_matrix p' with
     | None => Err AttributeError
     | Some H =>
         let n := n_vnodes p in
         if (n =? 0)%nat then Err ValueError
         else if negb (length llr mod n =? 0)%nat || (length llr =? 0)%nat then Err ValueError
         else mapM (decode_block H a n_iters) (chunks n (length llr / n) llr)
     end).
End Decoder.
