(* Model of viterbi_decode, _acs_traceback and _where_c of /repo/commpy/channelcoding/convcode.py.
   The metric arithmetic is a parameter: A with add and leb (exact arithmetic: binary64 rounding is not
   modelled), option A with None = np.inf for the accumulated metrics.  X is the type of the received
   values.  np.empty arrays: decoded_bits starts as None cells; the arrays paths, pmetrics and
   index_array start with arbitrary content (the garbage_* parameters). *)
From Verif Require Import Base UtilModel TrellisModel.

Section Viterbi.
Context {A X : Type} (add : A -> A -> A) (leb : A -> A -> bool) (zero : A).

Definition oadd (a : option A) (b : A) : option A := match a with Some a => Some (add a b) | None => None end.
Definition olt (a b : option A) : bool :=
  match a, b with Some a, Some b => negb (leb b a) | Some _, None => true | None, _ => false end.

(* ndarray.argmin(): the first index of the smallest entry; min() is the entry there *)
Fixpoint argmin_from (best : nat) (bv : option A) (i : nat) (l : list (option A)) : nat :=
  match l with
  | [] => best
  | v :: l' => if olt v bv then argmin_from i v (S i) l' else argmin_from best bv (S i) l'
  end.
Definition argmin (l : list (option A)) : nat := match l with [] => 0%nat | v :: l' => argmin_from 0 v 1 l' end.

(* What decoding_type selects: the branch metric of a received word (convcode.py 575-587,
   _compute_branch_metrics; its lru_cache is transparent, see CacheModel), the value assigned by the
   padding (convcode.py 725-734), and whether coded_bits is replaced by a clipped copy (718-719). *)
Record dtype := { d_metric : list X -> list Z -> res A; d_pad : res X; d_clip : option (X -> X) }.

(* convcode.py 561-572 _where_c: the (state, input) pairs leading to search_value, in row-major order *)
Definition where_list (tr : Trellis) (v : Z) : list (Z * Z) :=
  flat_map (fun i => flat_map (fun j => if nth j (nth i (tr_next tr) []) (-1) =? v then [(Z.of_nat i, Z.of_nat j)] else [])
                              (seq 0 (number_inputs tr))) (seq 0 (number_states tr)).

(* pmetrics and index_array, allocated once per call and reused for every state *)
Record scratch := { pmetrics : list (option A); index_array : list (Z * Z) }.

(* convcode.py 610-642: one state *)
Definition acs_state (d : dtype) (tr : Trellis) (r : list X) (pm0 : list (option A)) (sc : scratch) (state_num : nat)
    : res (scratch * option A * Z * Z) :=
  let found := where_list tr (Z.of_nat state_num) in
  if (length (index_array sc) <? length found)%nat then Err IndexError else
  let ia := found ++ skipn (length found) (index_array sc) in
  pms <- foldM (fun pms (i : nat) =>
           prev <- py_get ia (Z.of_nat i) ;;
           i_codeword <- table_get (tr_out tr) (fst prev) (snd prev) ;;
           i_codeword_array <- dec2bitarray i_codeword (tr_n tr) ;;
           branch_metric <- d_metric d r i_codeword_array ;;
           p <- py_get pm0 (fst prev) ;;
           py_set pms (Z.of_nat i) (oadd p branch_metric)) (seq 0 (length found)) (pmetrics sc) ;;
  let min_idx := argmin pms in
  sel <- py_get ia (Z.of_nat min_idx) ;;
  Ok ({| pmetrics := pms; index_array := ia |}, nth min_idx pms None, fst sel, snd sel).

(* a[r, c] = v *)
Definition mat_set (m : list (list Z)) (r c : nat) (v : Z) : res (list (list Z)) :=
  row <- py_get m (Z.of_nat r) ;; row' <- py_set row (Z.of_nat c) v ;; py_set m (Z.of_nat r) row'.

(* convcode.py 607-642: the loop over the states *)
Definition acs_loop (d : dtype) (tr : Trellis) (r : list X) (pm0 : list (option A)) (tb_count : nat)
    (st : scratch * list (option A) * list (list Z) * list (list Z)) : res (scratch * list (option A) * list (list Z) * list (list Z)) :=
  foldM (fun st state_num =>
    let '(sc, pm1, paths, syms) := st in
    e <- acs_state d tr r pm0 sc state_num ;;
    let '(sc', metric, prev, inp) := e in
    pm1' <- py_set pm1 (Z.of_nat state_num) metric ;;
    paths' <- mat_set paths state_num tb_count prev ;;
    syms' <- mat_set syms state_num tb_count inp ;;
    Ok (sc', pm1', paths', syms')) (seq 0 (number_states tr)) st.

(* convcode.py 648-654: the traceback loop, j = tb_depth-1 .. 1 (t >= tb_depth - 1, so t - tb_depth + 1 is
   the natural number t + 1 - tb) *)
Definition traceback (tr : Trellis) (tb t count : nat) (paths syms : list (list Z)) (start : Z) (db : list (option Z))
    : res (list (option Z)) :=
  st <- foldM (fun st j =>
    let '(current_state, db) := st in
    srow <- py_get syms current_state ;; dec_symbol <- py_get srow (Z.of_nat j) ;;
    prow <- py_get paths current_state ;; previous_state <- py_get prow (Z.of_nat j) ;;
    bitarr <- dec2bitarray dec_symbol (tr_k tr) ;;
    db' <- slice_assign db (t + 1 - tb + (j - 1) * tr_k tr + count) (t + 1 - tb + j * tr_k tr + count) (map Some bitarr) ;;
    Ok (previous_state, db')) (rev (seq 1 (tb - 1))) (start, db) ;;
  Ok (snd st).

(* convcode.py 656-657: x[:, 0:tb-1] = x[:, 1:] *)
Definition shift_cols (m : list (list Z)) : list (list Z) := map (fun row => tl row ++ skipn (length row - 1) row) m.

(* the variables of the main loop *)
Record vstate := {
  v_coded : list X;              (* the array the name coded_bits refers to *)
  v_view : option nat;           (* r_codeword is a view of it, starting there *)
  v_pm : list (option A);        (* path_metrics[:, 0] *)
  v_paths : list (list Z);
  v_syms : list (list Z);
  v_bits : list (option Z);      (* decoded_bits *)
  v_tb : nat;                    (* tb_count *)
  v_count : nat                  (* count *)
}.

(* convcode.py 721-747: the body of the main loop.  Column 1 of path_metrics is completely overwritten by
   the loop over the states before it is read, so its initial content does not matter. *)
Definition vstep (d : dtype) (tr : Trellis) (L tb : nat) (garbage : nat -> scratch) (v : vstate) (t : nat) : res vstate :=
  let k := tr_k tr in let n := tr_n tr in
  rc <- (if (t <=? L / k)%nat then Ok (slice (v_coded v) ((t - 1) * n) (t * n), v_coded v, Some ((t - 1) * n)%nat)
         else pad <- d_pad d ;;
              match v_view v with
              | Some s => let len := length (slice (v_coded v) s (s + n)) in
                          Ok (repeat pad len, firstn s (v_coded v) ++ repeat pad len ++ skipn (s + len) (v_coded v), Some s)
              | None => Ok (repeat pad n, v_coded v, None)
              end) ;;
  let '(r, coded, view) := rc in
  e <- acs_loop d tr r (v_pm v) (v_tb v) (garbage t, v_pm v, v_paths v, v_syms v) ;;
  let '(_, pm1, paths, syms) := e in
  if (tb <=? t + 1)%nat then
    db <- traceback tr tb t (v_count v) paths syms (Z.of_nat (argmin pm1)) (v_bits v) ;;
    Ok {| v_coded := coded; v_view := view; v_pm := pm1; v_paths := shift_cols paths; v_syms := shift_cols syms; v_bits := db;
          v_tb := tb - 1; v_count := v_count v + (k - 1) |}
  else
    Ok {| v_coded := coded; v_view := view; v_pm := pm1; v_paths := paths; v_syms := syms; v_bits := v_bits v;
          v_tb := v_tb v + 1; v_count := v_count v |}.

(* convcode.py 661-749 viterbi_decode: the decoded bits and the caller's array afterwards.
   Simplification: tb_depth is not negative.  garbage_paths: initial content of paths. *)
Definition viterbi_decode (d : dtype) (coded_bits : list X) (tr : Trellis) (tb_depth : option nat)
    (garbage_paths : nat -> nat -> Z) (garbage : nat -> scratch) : res (list (option Z) * list X) :=
  let k := tr_k tr in let n := tr_n tr in let M := tr_M tr in
  let L := Z.to_nat (int_mul_rate (Z.of_nat (length coded_bits)) k n) in
  let tb := match tb_depth with Some x => x | None => Nat.min (5 * M) L end in
  let S := number_states tr in
  let pm := upd (repeat None S) 0 (Some zero) in
  let paths := map (fun s => map (garbage_paths s) (seq 0 tb)) (seq 0 S) in
  paths <- mat_set paths 0 0 0 ;;
  let v := {| v_coded := match d_clip d with Some f => map f coded_bits | None => coded_bits end; v_view := None;
              v_pm := pm; v_paths := paths; v_syms := repeat (repeat 0 tb) S;
              v_bits := repeat None ((L + tb + k - 1) / k * k); v_tb := 1; v_count := 0 |} in
  v <- foldM (vstep d tr L tb garbage) (seq 1 ((L + M) / k - 1)) v ;;
  Ok (firstn L (v_bits v), match d_clip d with Some _ => coded_bits | None => v_coded v end).

End Viterbi.
Arguments scratch : clear implicits.
Arguments dtype : clear implicits.
Arguments vstate : clear implicits.

(* decoding_type='hard' (the real-valued types are in ViterbiReal.v): received values are integers (r_codeword.astype(int) has been applied) *)
Definition hard : dtype Z Z := {| d_metric := fun r i => hamming_dist r i; d_pad := Ok 0; d_clip := None |}.
(* any other decoding_type: _compute_branch_metrics returns None, and adding it is a TypeError *)
Definition unknown_type {A X} : dtype A X := {| d_metric := fun _ _ => Err TypeError; d_pad := Err ValueError; d_clip := None |}.
