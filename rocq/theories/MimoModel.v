(* Model of /repo/commpy/modulation.py, part 2: mimo_ml, kbest, best_first_detector, bit_lvl_repr, max_log_approx
   (lines 299-646).  Numbers are exact reals / complex numbers.  A matrix is the list of its rows; the number of columns
   ([h.shape]) is passed explicitly where the rows cannot determine it (no rows). *)
From Verif Require Import Base UtilModel Cplx ModemModel.
Open Scope Z_scope.

(* ---------------------------------------------------------------- numpy *)
(* dot of two vectors, matrix times vector, conjugate transpose (of a matrix with n columns) *)
Definition dotC (a b : list C) : C := Csum (map (fun p => (fst p * snd p)%C) (combine a b)).
Definition matvec (h : list (list C)) (x : list C) : list C := map (fun row => dotC row x) h.
Definition column (h : list (list C)) (k : nat) : list C := map (fun row => nth k row C0) h.
Definition conj_transpose (n : nat) (q : list (list C)) : list (list C) := map (fun k => map Cconj (column q k)) (seq 0 n).
(* norm(y[:, None] - h.dot(x), axis=0) ** 2 for one column x; y is broadcast against the rows *)
Definition dist2 (y : list C) (h : list (list C)) (x : list C) : res R :=
  l <- np_broadcast2 y (matvec h x) ;; Ok (Rsum (map (fun p => Cnorm2 (fst p - snd p)%C) l)).

(* ---------------------------------------------------------------- mimo_ml: 313-322 *)
(* 316-318: row i of x_ideal is repeat(tile(constellation, m ** i), m ** (n - i - 1)) *)
Definition ideal_row (c : list C) (n i : nat) : list C :=
  flat_map (fun s => repeat s (length c ^ (n - i - 1))) (concat (repeat c (length c ^ i))).
Definition x_ideal (c : list C) (n : nat) : list (list C) := map (ideal_row c n) (seq 0 n).
Definition mimo_ml (y : list C) (h : list (list C)) (n : nat) (constellation : list C) : res (list C) :=
  norms <- mapM (fun k => d <- dist2 y h (column (x_ideal constellation n) k) ;; Ok (sqrt d)) (seq 0 (length constellation ^ n)) ;;
  min_idx <- argmin norms ;;
  Ok (column (x_ideal constellation n) min_idx).

(* ---------------------------------------------------------------- max_log_approx: 625-646 *)
(* values of a float array that may be infinite or NaN *)
Inductive ext := Fin (r : R) | PInf | MInf | NaN.
(* min(list + [inf]); None is inf *)
Definition min_inf (l : list R) : option R :=
  fold_left (fun m x => match m with None => Some x | Some v => if Rlt_dec x v then Some x else Some v end) l None.
(* 644: difference of two minima *)
Definition ext_sub (a b : option R) : ext :=
  match a, b with Some x, Some y => Fin (x - y) | None, Some _ => PInf | Some _, None => MInf | None, None => NaN end.
Definition ext_opp (x : ext) : ext := match x with Fin r => Fin (- r) | PInf => MInf | MInf => PInf | NaN => NaN end.
(* numpy division by a real: division by zero gives an infinity or NaN *)
Definition ext_div (x : ext) (v : R) : ext :=
  match x with
  | NaN => NaN
  | Fin r => if Req_EM_T v 0 then (if Rlt_dec 0 r then PInf else if Rlt_dec r 0 then MInf else NaN) else Fin (r / v)
  | PInf => if Rlt_dec v 0 then MInf else PInf
  | MInf => if Rlt_dec v 0 then PInf else MInf
  end.

(* [pts] is the list of the columns of pts_list; [demode] is the user's function.  reshape raises ValueError when the number
   of bits is not a multiple of the number of points, and for no points. *)
Definition max_log_approx (y : list C) (h : list (list C)) (noise_var : R) (pts : list (list C)) (demode : list C -> res (list Z)) : res (list ext) :=
  word <- demode (concat pts) ;;
  let nb_pts := length pts in
  if (nb_pts =? 0)%nat || negb (length word mod nb_pts =? 0)%nat then Err ValueError
  else
    let nb_bits := (length word / nb_pts)%nat in
    mapM (fun k =>
        let sel (t : Z) := map snd (filter (fun ip => nth (fst ip * nb_bits + k) word 2 =? t) (combine (seq 0 nb_pts) pts)) in
        n0 <- mapM (dist2 y h) (sel 0) ;; n1 <- mapM (dist2 y h) (sel 1) ;;
        Ok (ext_div (ext_opp (ext_sub (min_inf n0) (min_inf n1))) (2 * noise_var)))
      (seq 0 nb_bits).

(* ---------------------------------------------------------------- kbest: 368-419 *)
(* One column of X, the same column of d, the same entry of d_tot.  Columns beyond nb_can are never read, so only the first
   nb_can columns are represented, as a list. *)
Record cand := { cx : list C; cd : list C; ct : R }.
Definition cand0 : cand := {| cx := []; cd := []; ct := 0%R |}.

(* 390-412, one value of coor.  [argsort] is numpy's argsort on floats (any sorting permutation, see MimoSpec). *)
Definition kb_step (argsort : list R -> list nat) (r : list (list C)) (c : list C) (K coor : nat) (cands : list cand) : list cand :=
  let nb_can := length cands in
  let nb_hyp := (nb_can * length c)%nat in
  let copies := concat (repeat cands (length c)) in                          (* tile(..., (1, m)) *)
  let hyp := flat_map (fun s => repeat s nb_can) c in                        (* repeat(constellation, nb_can) *)
  let made := map (fun p =>
        let d := (nth coor (cd (fst p)) C0 - nth coor (nth coor r []) C0 * snd p)%C in
        {| cx := upd (cx (fst p)) coor (snd p); cd := upd (cd (fst p)) coor d; ct := (ct (fst p) + Cabs d * Cabs d)%R |})
      (combine copies hyp) in
  let order := argsort (map ct made) in
  map (fun i => let k := nth i made cand0 in
        {| cx := cx k; ct := ct k;
           cd := map (fun jd => if (fst jd <? coor)%nat then (snd jd - nth coor (nth (fst jd) r []) C0 * nth i hyp C0)%C else snd jd)
                     (combine (seq 0 (length (cd k))) (cd k)) |})
    (firstn (Nat.min nb_hyp K) order).

Definition kb_cands (argsort : list R -> list nat) (garbage : list C) (y : list C) (n : nat) (q r : list (list C)) (c : list C) (K : nat) : list cand :=
  fold_left (fun cands coor => kb_step argsort r c K coor cands) (rev (seq 0 n))
            [{| cx := garbage; cd := matvec (conj_transpose n q) y; ct := 0%R |}].

Inductive kb_out := KHard (x : list C) | KSoft (l : list ext).
(* 368-419.  [q, r = qr(h)] (numpy, reduced): parameters.  [garbage]: contents of a column of np.empty.  h is rows x n.
   K = 0: the assignment to hyp raises ValueError unless m = 1 (or n = 0); then X[:, 0] raises IndexError (hard) and reshape
   raises ValueError (soft).  Only complex constellations or real data are modelled (const_type, 380-383). *)
Definition kbest (argsort : list R -> list nat) (garbage : list C) (y : list C) (h q r : list (list C)) (n : nat) (constellation : list C) (K : nat)
                 (noise_var : R) (output_type : demod) (demode : list C -> res (list Z)) : res kb_out :=
  if (length h <? n)%nat then Err ValueError
  else if negb (length y =? length h)%nat then Err ValueError
  else match constellation with
  | [] => Err IndexError
  | _ =>
    if (K =? 0)%nat && negb (length constellation =? 1)%nat && negb (n =? 0)%nat then Err ValueError
    else
      let cands := if (K =? 0)%nat then [] else kb_cands argsort garbage y n q r constellation K in
      match output_type with
      | Hard => match cands with [] => Err IndexError | k :: _ => Ok (KHard (cx k)) end
      | Soft => l <- max_log_approx y h noise_var (map cx cands) demode ;; Ok (KSoft l)
      | OtherType => Err ValueError
      end
  end.

(* ---------------------------------------------------------------- bit_lvl_repr: 589-596 *)
(* eye(n, n), kron(In, w) with the 1-D w read as one row, dot *)
Definition kron_eye (n : nat) (w : list C) : list (list C) :=
  map (fun i => flat_map (fun j => map (fun wk => ((if (i =? j)%nat then C1 else C0) * wk)%C) w) (seq 0 n)) (seq 0 n).
Definition bit_lvl_repr (H : list (list C)) (n : nat) (w : list C) : res (list (list C)) :=
  if (length w mod 2 =? 0)%nat
  then Ok (map (fun row => map (fun k => dotC row (column (kron_eye n w) k)) (seq 0 (n * length w))) H)
  else Err ValueError.

(* ---------------------------------------------------------------- best_first_detector: 459-565 *)
(* _Node (459-479): a node with its chain of siblings, best first: a non-empty list of (symb_vector, partial_metric) *)
Definition node := list (list C * R).
Definition metric_of (nd : node) : R := snd (nth 0 nd ([], 0%R)).
Definition symbols_of (nd : node) : list C := fst (nth 0 nd ([], 0%R)).

(* 481-495 expand.  yt[-child_size] raises IndexError below the root of the triangular system; r[-child_size, -child_size:] is
   the tail of a row. *)
Definition expand (argsort : list R -> list nat) (yt : list C) (r : list (list C)) (c : list C) (symbs : list C) (metric : R) : res node :=
  let cs := S (length symbs) in
  if (length yt <? cs)%nat then Err IndexError
  else
    let row := nth (length r - cs) r [] in
    let tail := skipn (length row - cs) row in
    let kids := map (fun s => let v := s :: symbs in
                  let e := (nth (length yt - cs) yt C0 - dotC tail v)%C in (v, (Cabs e * Cabs e + metric)%R)) c in
    Ok (map (fun i => nth i kids ([], 0%R)) (argsort (map snd kids))).

(* bisect.insort on a sorted list: before the first entry that is larger *)
Fixpoint insort (l : list node) (nd : node) : list node :=
  match l with
  | [] => [nd]
  | x :: l' => if Rlt_dec (metric_of nd) (metric_of x) then nd :: l else x :: insort l' nd
  end.

(* None is inf (counters, map_metric) *)
Definition le_inf (x : R) (b : option R) : bool := match b with None => true | Some v => if Rle_dec x v then true else false end.
Definition min_opt (a b : option R) : option R := match a, b with None, x | x, None => x | Some u, Some v => Some (Rmin u v) end.
Definition max_opt (a b : option R) : option R := match a, b with None, _ | _, None => None | Some u, Some v => Some (Rmax u v) end.
(* ndarray.max(): ValueError on an empty array *)
Definition np_max (l : list (option R)) : res (option R) := match l with [] => Err ValueError | x :: l' => Ok (fold_left max_opt l' x) end.

Record bf_state := { map_metric : option R; map_bits : option (list (list Z)); counter : list (list (option R)); stacks : list (list node) }.

(* demode(v).reshape(-1, order) with 0 replaced by -1 (528-529, 554-555); order = 0 raises ValueError *)
Definition bit_rows (demode : list C -> res (list Z)) (order : nat) (v : list C) : res (list (list Z)) :=
  b <- demode v ;;
  if (order =? 0)%nat || negb (length b mod order =? 0)%nat then Err ValueError
  else Ok (map (fun k => map (fun x => if x =? 0 then -1 else x) (slice b (k * order) (k * order + order))) (seq 0 (length b / order))).

(* 524-536 search radius for a node taken from stack [idx].  The boolean mask needs the shape of the counters (IndexError
   otherwise); comparing arrays of different numbers of rows ends in a ValueError that 533 catches (broadcasting one row against several
   is not modelled). *)
Definition radius (demode : list C -> res (list Z)) (order : nat) (st : bf_state) (idx : nat) (v : list C) : res (option R) :=
  match map_bits st with
  | None => Ok None
  | Some mb =>
      bv <- bit_rows demode order v ;;
      let mb' := skipn idx mb in
      let same := (length mb' =? length bv)%nat in
      if same && negb (length bv =? length (skipn idx (counter st)))%nat then Err IndexError
      else
        let chosen := map snd (filter (fun x => negb (fst (fst x) =? snd (fst x)))
                        (combine (combine (concat mb') (concat bv)) (concat (skipn idx (counter st))))) in
        let a2 := if same then match np_max chosen with Ok m => m | Err _ => None end else None in
        m <- np_max (concat (firstn idx (counter st))) ;;
        Ok (max_opt m a2)
  end.

(* 519-547, one value of idx_next_stack.  Any IndexError ends the body silently; what was done before it stays done. *)
Definition bf_node (argsort : list R -> list nat) (yt : list C) (r : list (list C)) (c : list C) (demode : list C -> res (list Z)) (order : nat)
                   (st : bf_state) (idx_next : nat) : res bf_state :=
  let idx := S idx_next in
  match nth idx (stacks st) [] with
  | [] => Ok st                                                              (* pop(0) from an empty list *)
  | best :: rest =>
      let put st' i nds := {| map_metric := map_metric st'; map_bits := map_bits st'; counter := counter st'; stacks := upd (stacks st') i nds |} in
      let st1 := put st idx rest in
      match radius demode order st idx (symbols_of best) with
      | Err IndexError => Ok st1
      | Err e => Err e
      | Ok rad =>
          let st2 := match tl best with                                      (* 539-540 *)
                     | [] => st1
                     | sib => if le_inf (metric_of sib) rad then put st1 idx (insort (nth idx (stacks st1) []) sib) else st1
                     end in
          match expand argsort yt r c (symbols_of best) (metric_of best) with   (* 543-545 *)
          | Err IndexError => Ok st2
          | Err e => Err e
          | Ok child => Ok (if le_inf (metric_of child) rad then put st2 idx_next (insort (nth idx_next (stacks st2) []) child) else st2)
          end
      end
  end.

(* 549-558 LLR update; clip(x, lo, hi) = minimum(maximum(x, lo), hi) *)
Definition clip_opt (x : option R) (lo hi : R) : option R :=
  match x with None => Some hi | Some v => Some (Rmin (Rmax v lo) hi) end.
Definition bf_update (demode : list C -> res (list Z)) (order : nat) (llr_max : R) (st : bf_state) : res bf_state :=
  match nth 0 (stacks st) [] with
  | [] => Ok st
  | leaf :: _ =>
      let m := metric_of leaf in
      let better := match map_metric st with None => true | Some v => if Rlt_dec m v then true else false end in
      let cap := if better then map_metric st else Some m in
      let counter1 := map (map (fun x => min_opt x cap)) (counter st) in
      mb <- (if better then (b <- bit_rows demode order (symbols_of leaf) ;; Ok (Some b)) else Ok (map_bits st)) ;;
      let mm := if better then Some m else map_metric st in
      let v := match mm with Some v => v | None => 0%R end in
      Ok {| map_metric := mm; map_bits := mb; counter := map (map (fun x => clip_opt x (v - llr_max) (v + llr_max))) counter1; stacks := stacks st |}
  end.

(* 560-563 trimming; stack_size[i] raises IndexError if the tuple is too short *)
Definition bf_trim (stack_size : list nat) (st : bf_state) : res bf_state :=
  match stacks st with
  | [] => Ok st
  | _ :: up =>
      if (length stack_size <? length up)%nat then Err IndexError
      else Ok {| map_metric := map_metric st; map_bits := map_bits st; counter := counter st;
                 stacks := [] :: map (fun ns => firstn (fst ns) (snd ns)) (combine stack_size up) |}
  end.

Definition bf_busy (st : bf_state) : bool := existsb (fun s => match s with [] => false | _ => true end) (tl (stacks st)).

(* one round of the while loop *)
Definition bf_round argsort yt r c demode order stack_size llr_max (st : bf_state) : res bf_state :=
  st1 <- foldM (bf_node argsort yt r c demode order) (seq 0 (length (stacks st) - 1)) st ;;
  st2 <- bf_update demode order llr_max st1 ;;
  bf_trim stack_size st2.

(* the while loop with a bound on the number of rounds: None if it has not ended by then *)
Fixpoint bf_loop argsort yt r c demode order stack_size llr_max (fuel : nat) (st : bf_state) : option (res bf_state) :=
  if bf_busy st then
    match fuel with
    | O => None
    | S f => match bf_round argsort yt r c demode order stack_size llr_max st with
             | Err e => Some (Err e)
             | Ok st' => bf_loop argsort yt r c demode order stack_size llr_max f st'
             end
    end
  else Some (Ok st).

(* 498-565.  nb_tx = length h; n = number of columns; q, r = qr(h) (numpy, reduced) *)
Definition best_first_detector (argsort : list R -> list nat) (fuel : nat) (y : list C) (h q r : list (list C)) (n : nat) (constellation : list C)
                 (stack_size : list nat) (demode : list C -> res (list Z)) (llr_max : R) : option (res (list R)) :=
  match constellation with
  | [] => Some (Err OverflowError)
  | _ =>
    let order := Nat.log2 (length constellation) in
    if negb (length y =? length h)%nat then Some (Err ValueError)
    else
      let yt := matvec (conj_transpose (Nat.min (length h) n) q) y in
      match expand argsort yt r constellation [] 0%R with
      | Err e => Some (Err e)
      | Ok first =>
          let st0 := {| map_metric := None; map_bits := None; counter := repeat (repeat None order) (length h);
                        stacks := repeat [] (length h - 1) ++ [[first]] |} in
          match bf_loop argsort yt r constellation demode order stack_size llr_max fuel st0 with
          | None => None
          | Some (Err e) => Some (Err e)
          | Some (Ok st) =>
              match map_metric st, map_bits st with
              | Some v, Some mb => Some (Ok (map (fun xb => (v - match fst xb with Some x => x | None => 0 end) * IZR (snd xb))%R
                                                (combine (concat (counter st)) (concat mb))))
              | _, _ => Some (Err TypeError)                                 (* a number times None *)
              end
          end
      end
  end.
