(* Model of /repo/commpy/channelcoding/ldpc.py, part 1: design files, matrices, systematic encoder.
   Floating point: the real inverse computed by scipy.sparse.linalg.inv is modelled by exact rational arithmetic. *)
From Coq Require Import Ascii String QArith Qround Decimal.
From Verif Require Import Base.
Open Scope Z_scope.
Notation nth := List.nth.
Notation length := List.length.

(* ---------------------------------------------------------------- text *)
Definition text := list ascii.
Definition nl : ascii := "010". Definition tab : ascii := "009". Definition sp : ascii := " ".

(* '{}'.format(n) for n >= 0 *)
Fixpoint uint_text (d : Decimal.uint) : text :=
  match d with
  | Nil => [] | D0 d => "0"%char :: uint_text d | D1 d => "1"%char :: uint_text d | D2 d => "2"%char :: uint_text d
  | D3 d => "3"%char :: uint_text d | D4 d => "4"%char :: uint_text d | D5 d => "5"%char :: uint_text d | D6 d => "6"%char :: uint_text d
  | D7 d => "7"%char :: uint_text d | D8 d => "8"%char :: uint_text d | D9 d => "9"%char :: uint_text d
  end.
Definition fmt_nat (n : nat) : text := uint_text (Nat.to_uint n).

(* int(x) for a str x: surrounding white space is stripped, then an optional sign and decimal digits.
   Simplified: digit separators '_', non-ASCII digits and non-ASCII white space are rejected instead of accepted. *)
Definition is_space (c : ascii) : bool := existsb (Ascii.eqb c) [" "; "009"; "010"; "011"; "012"; "013"; "028"; "029"; "030"; "031"]%char.
Fixpoint lstrip (s : text) : text := match s with c :: s' => if is_space c then lstrip s' else s | [] => [] end.
Definition strip (s : text) : text := rev (lstrip (rev (lstrip s))).
Fixpoint digits (s : text) : option Decimal.uint :=
  match s with
  | [] => Some Nil
  | c :: s' =>
      match digits s' with
      | None => None
      | Some d =>
          if Ascii.eqb c "0" then Some (D0 d) else if Ascii.eqb c "1" then Some (D1 d) else if Ascii.eqb c "2" then Some (D2 d)
          else if Ascii.eqb c "3" then Some (D3 d) else if Ascii.eqb c "4" then Some (D4 d) else if Ascii.eqb c "5" then Some (D5 d)
          else if Ascii.eqb c "6" then Some (D6 d) else if Ascii.eqb c "7" then Some (D7 d) else if Ascii.eqb c "8" then Some (D8 d)
          else if Ascii.eqb c "9" then Some (D9 d) else None
      end
  end.
Definition py_nat (s : text) : res Z :=
  match s with [] => Err ValueError | _ => match digits s with Some d => Ok (Z.of_nat (Nat.of_uint d)) | None => Err ValueError end end.
Definition py_int (s : text) : res Z :=
  match strip s with
  | c :: s' => if Ascii.eqb c "-" then (x <- py_nat s' ;; Ok (- x)) else if Ascii.eqb c "+" then py_nat s' else py_nat (c :: s')
  | [] => Err ValueError
  end.

(* str.split(c) with a one-character separator; file.readline() *)
Fixpoint split (c : ascii) (s : text) : list text :=
  match s with
  | [] => [[]]
  | a :: s' => if Ascii.eqb a c then [] :: split c s' else match split c s' with w :: ws => (a :: w) :: ws | [] => [[a]] end
  end.
Fixpoint readline (s : text) : text * text :=
  match s with
  | [] => ([], [])
  | a :: s' => if Ascii.eqb a nl then ([a], s') else let '(l, r) := readline s' in (a :: l, r)
  end.

(* The file system: path -> contents.  Directories, permissions and encodings are not modelled. *)
Definition fsys := list (string * text).
Fixpoint lookup (p : string) (fs : fsys) : option text :=
  match fs with [] => None | (q, c) :: fs' => if String.eqb p q then Some c else lookup p fs' end.

(* ---------------------------------------------------------------- arrays *)
(* A 2-d array of ints: rows, with the number of columns (needed when there is no row). *)
Record arr2 := { a_cols : nat; a_rows : list (list Z) }.
Definition shaped (H : arr2) : Prop := Forall (fun r => length r = a_cols H) (a_rows H).
Definition column (j : nat) (rows : list (list Z)) : list Z := map (fun r => nth j r 0) rows.
Definition columns (H : arr2) : list (list Z) := map (fun j => column j (a_rows H)) (seq 0 (a_cols H)).
(* ndarray.nonzero()[0] of a 1-d array *)
Definition nonzero (l : list Z) : list nat := filter (fun i => negb (nth i l 0 =? 0)) (seq 0 (length l)).
(* ndarray.max() *)
Definition py_max (l : list Z) : res Z := match l with [] => Err ValueError | x :: l' => Ok (fold_left Z.max l' x) end.

(* ---------------------------------------------------------------- write_ldpc_params: ldpc.py 257-299 *)
(* Everything written to the file before the first exception, and the exception.  Degrees are the sums of
   the entries (parity_check_matrix.sum); '{}'.format of a negative sum is not modelled (entries are 0/1). *)
Definition fmt_int (x : Z) : text := if x <? 0 then "-"%char :: fmt_nat (Z.to_nat (- x)) else fmt_nat (Z.to_nat x).
(* lines 288-292 and 294-298: one line of node numbers (1-based); nodes[-1] of an empty array raises IndexError
   (nothing has been written for that line) *)
Definition node_line (nodes : list nat) : option text :=
  match rev nodes with
  | [] => None
  | z :: _ => Some (flat_map (fun v => fmt_nat (v + 1) ++ [tab]) (removelast nodes) ++ fmt_nat (z + 1) ++ [nl])
  end.
Fixpoint node_lines (ls : list (list Z)) : text * option exn :=
  match ls with
  | [] => ([], None)
  | l :: ls' =>
      match node_line (nonzero l) with
      | None => ([], Some IndexError)
      | Some t => let '(ts, e) := node_lines ls' in (t ++ ts, e)
      end
  end.
Definition ldpc_text (H : arr2) : text * option exn :=
  let cdeg := map Zsum (columns H) in
  let rdeg := map Zsum (a_rows H) in
  (* 278 *)
  let l1 := fmt_nat (a_cols H) ++ [sp] ++ fmt_nat (length (a_rows H)) ++ [nl] in
  match py_max cdeg, py_max rdeg with
  | Ok mv, Ok mc =>
      (* 279-286 *)
      let l2 := fmt_int mv ++ [sp] ++ fmt_int mc ++ [nl] in
      let l3 := flat_map (fun d => fmt_int d ++ [sp]) cdeg ++ [nl] in
      let l4 := flat_map (fun d => fmt_int d ++ [sp]) rdeg ++ [nl] in
      let hd := l1 ++ l2 ++ l3 ++ l4 in
      match node_lines (columns H) with
      | (tv, Some e) => (hd ++ tv, Some e)
      | (tv, None) =>
          match node_lines (a_rows H) with
          | (tc, Some e) => (hd ++ tv ++ tc, Some e)
          | (tc, None) => (hd ++ tv ++ tc ++ [nl], None)
          end
      end
  | _, _ => (l1, Some ValueError)
  end.
(* 277: open(file_path, 'x') raises FileExistsError for an existing file; otherwise the file is created, and it
   keeps what was written before an exception *)
Definition write_ldpc_params (H : arr2) (path : string) (fs : fsys) : fsys * res unit :=
  match lookup path fs with
  | Some _ => (fs, Err FileExistsError)
  | None => let '(t, e) := ldpc_text H in ((path, t) :: fs, match e with None => Ok tt | Some x => Err x end)
  end.

(* ---------------------------------------------------------------- the code dictionary *)
Record ldpc := {
  n_vnodes : nat; n_cnodes : nat; max_vdeg : nat; max_cdeg : nat;
  v_adj : list Z; c_adj : list Z;     (* flattened *)
  c_map : list Z; v_map : list Z;     (* flattened *)
  v_deg : list Z; c_deg : list Z;
  p_matrix : option arr2;             (* 'parity_check_matrix' *)
  p_gen : option (nat * list (list Q)) (* 'generator_matrix': number of columns, rows *)
}.

(* ---------------------------------------------------------------- build_matrix: ldpc.py 13-48 *)
(* l.reshape((r, c)) in C order *)
Fixpoint chunks {A} (c r : nat) (l : list A) : list (list A) :=
  match r with O => [] | S r' => firstn c l :: chunks c r' (skipn c l) end.
Definition reshape2 {A} (l : list A) (r c : nat) : res (list (list A)) :=
  if (length l =? r * c)%nat then Ok (chunks c r l) else Err ValueError.
(* l[:d] *)
Definition upto {A} (l : list A) (d : Z) : list A :=
  if d <? 0 then firstn (Z.to_nat (Z.of_nat (length l) + d)) l else firstn (Z.to_nat d) l.
(* row of the LIL matrix: zeros, then row[indices] = 1 *)
Definition one_row (n : nat) (idx : list Z) : res (list Z) := foldM (fun row i => py_set row i 1) idx (repeat 0 n).

(* scipy.sparse.linalg.inv, exactly: Gauss-Jordan elimination over the rationals.  None = singular matrix. *)
Open Scope Q_scope.
Fixpoint qdot (r x : list Q) : Q := match r, x with a :: r', b :: x' => a * b + qdot r' x' | _, _ => 0 end.
Fixpoint pivot (rows : list (list Q * Q)) : option ((Q * list Q * Q) * list (list Q * Q)) :=
  match rows with
  | [] => None
  | (a :: cs, b) :: rest =>
      if Qeq_bool a 0 then match pivot rest with Some (p, others) => Some (p, (a :: cs, b) :: others) | None => None end
      else Some ((a, cs, b), rest)
  | _ :: _ => None
  end.
Fixpoint zip_sub (f : Q) (t cs : list Q) : list Q := match t, cs with a :: t', c :: cs' => Qred (a - f * c) :: zip_sub f t' cs' | _, _ => [] end.
Definition elim (a : Q) (cs : list Q) (b : Q) (r : list Q * Q) : list Q * Q :=
  match fst r with
  | [] => r
  | h :: t => let f := Qred (h / a) in (zip_sub f t cs, Qred (snd r - f * b))
  end.
Fixpoint solve (n : nat) (rows : list (list Q * Q)) : option (list Q) :=
  match n with
  | O => Some []
  | S n' =>
      match pivot rows with
      | None => None
      | Some ((a, cs, b), others) =>
          match solve n' (map (elim a cs b) others) with
          | None => None
          | Some xs => Some (Qred ((b - qdot cs xs) / a) :: xs)
          end
      end
  end.
Definition unitv (n j : nat) : list Q := map (fun i => if (i =? j)%nat then 1 else 0) (seq 0 n).
Fixpoint all_some {A} (l : list (option A)) : option (list A) :=
  match l with [] => Some [] | Some a :: l' => match all_some l' with Some r => Some (a :: r) | None => None end | None :: _ => None end.
Definition transpose (c : nat) (rows : list (list Q)) : list (list Q) := map (fun j => map (fun r => nth j r 0) rows) (seq 0 c).
(* the inverse of a square matrix, as its list of rows; column j solves S x = e_j *)
Definition inv_matrix (S : list (list Q)) : option (list (list Q)) :=
  let m := length S in
  match all_some (map (fun j => solve m (combine S (unitv m j))) (seq 0 m)) with
  | Some cols => Some (transpose m cols)
  | None => None
  end.
Definition matmul (A : list (list Q)) (c : nat) (B : list (list Q)) : list (list Q) := map (fun r => map (qdot r) (transpose c B)) A.
Open Scope Z_scope.

(* 35-48.  The parity-check matrix is stored (line 47) before the inverse is computed (line 48).
   Slices: H[:, -m:] and H[:, :-m].  A non-square systematic part makes inv raise ValueError, a singular one
   RuntimeError.  (With a single check node, some SciPy versions return a 1-d array from inv: theorems about the
   generator assume at least two check nodes.) *)
Definition systematic_start (m n : nat) : nat := if (m =? 0)%nat then 0%nat else (n - m)%nat.
Definition parity_rows (p : ldpc) : res (list (list Z)) :=
  adj <- reshape2 (c_adj p) (n_cnodes p) (max_cdeg p) ;;
  mapM (fun c => d <- py_get (c_deg p) (Z.of_nat c) ;; one_row (n_vnodes p) (upto (nth c adj []) d)) (seq 0 (n_cnodes p)).
Definition set_matrix (p : ldpc) (H : arr2) : ldpc :=
  {| n_vnodes := n_vnodes p; n_cnodes := n_cnodes p; max_vdeg := max_vdeg p; max_cdeg := max_cdeg p; v_adj := v_adj p; c_adj := c_adj p;
     c_map := c_map p; v_map := v_map p; v_deg := v_deg p; c_deg := c_deg p; p_matrix := Some H; p_gen := p_gen p |}.
Definition set_gen (p : ldpc) (g : nat * list (list Q)) : ldpc :=
  {| n_vnodes := n_vnodes p; n_cnodes := n_cnodes p; max_vdeg := max_vdeg p; max_cdeg := max_cdeg p; v_adj := v_adj p; c_adj := c_adj p;
     c_map := c_map p; v_map := v_map p; v_deg := v_deg p; c_deg := c_deg p; p_matrix := p_matrix p; p_gen := Some g |}.
Definition build_matrix (p : ldpc) : ldpc * res unit :=
  match parity_rows p with
  | Err e => (p, Err e)
  | Ok rows =>
      let n := n_vnodes p in let m := n_cnodes p in let k := systematic_start m n in
      let p1 := set_matrix p {| a_cols := n; a_rows := rows |} in
      let S := map (fun r => map inject_Z (skipn k r)) rows in
      let P := map (fun r => map inject_Z (firstn k r)) rows in
      if negb (n - k =? m)%nat then (p1, Err ValueError)
      else match inv_matrix S with
           | None => (p1, Err RuntimeError)
           | Some B => (set_gen p1 (k, matmul B k P), Ok tt)
           end
  end.

(* ---------------------------------------------------------------- get_ldpc_code_params: ldpc.py 51-141 *)
(* np.array([...], np.int32): OverflowError outside of int32;  astype(np.int32): wraps *)
Definition to_int32 (x : Z) : res Z := if (- 2 ^ 31 <=? x) && (x <? 2 ^ 31) then Ok x else Err OverflowError.
Definition wrap32 (x : Z) : Z := (x + 2 ^ 31) mod 2 ^ 32 - 2 ^ 31.
Definition pair_line (s : text) : res (Z * Z) :=
  l <- mapM py_int (split sp s) ;; match l with [a; b] => Ok (a, b) | _ => Err ValueError end.
Definition deg_line (s : text) : res (list Z) := l <- mapM py_int (removelast (split sp s)) ;; mapM to_int32 l.
(* row[0:d] = values (a row of [w] entries): the lengths must agree, except that one value is broadcast *)
Definition assign_prefix (w : nat) (d : Z) (vals : list Z) : res (list Z) :=
  let t := length (upto (repeat 0 w) d) in
  if (length vals =? t)%nat then Ok (vals ++ repeat (-1) (w - t))
  else match vals with [x] => Ok (repeat x t ++ repeat (-1) (w - t)) | _ => Err ValueError end.
(* 101-107 *)
Fixpoint adj_rows (degs : list Z) (w : nat) (i r : nat) (s : text) : res (list (list Z) * text) :=
  match r with
  | O => Ok ([], s)
  | S r' =>
      let '(l, s') := readline s in
      vals <- mapM (fun x => y <- py_int x ;; Ok (y - 1)) (split tab l) ;;
      d <- py_get degs (Z.of_nat i) ;;
      row <- assign_prefix w d vals ;;
      x <- adj_rows degs w (i + 1) r' s' ;;
      Ok (row :: fst x, snd x)
  end.
(* np.where(row == c)[0], assigned to one array element: exactly one match is required *)
Definition where_one (row : list Z) (c : Z) : res Z :=
  match filter (fun i => nth i row 0 =? c) (seq 0 (length row)) with [i] => Ok (Z.of_nat i) | _ => Err ValueError end.
(* 112-118: for every a, row a of the map holds, for the i-th neighbour b of a, the position of a among b's neighbours *)
Definition build_map (adj other : list (list Z)) (degs : list Z) (r w : nat) : res (list (list Z)) :=
  mapM (fun a =>
          d <- py_get degs (Z.of_nat a) ;;
          let nb := upto (nth a adj []) d in
          l <- mapM (fun b => row <- py_get other b ;; where_one row (Z.of_nat a)) nb ;;
          Ok (l ++ repeat (-1) (w - length l)))
       (seq 0 r).
Definition parse_ldpc (s : text) : res ldpc :=
  let '(l1, s) := readline s in nm <- pair_line l1 ;; let '(n, m) := nm in
  let '(l2, s) := readline s in dd <- pair_line l2 ;; let '(dv, dc) := dd in
  let '(l3, s) := readline s in vdeg <- deg_line l3 ;;
  let '(l4, s) := readline s in cdeg <- deg_line l4 ;;
  (* 98-99: -np.ones([rows, width], int) *)
  if (n <? 0) || (m <? 0) || (dv <? 0) || (dc <? 0) then Err ValueError
  else
    let n := Z.to_nat n in let m := Z.to_nat m in let dv := Z.to_nat dv in let dc := Z.to_nat dc in
    vs <- adj_rows vdeg dv 0 n s ;;
    cs <- adj_rows cdeg dc 0 m (snd vs) ;;
    let va := fst vs in let ca := fst cs in
    cm <- build_map ca va cdeg m dc ;;
    vm <- build_map va ca vdeg n dv ;;
    Ok {| n_vnodes := n; n_cnodes := m; max_vdeg := dv; max_cdeg := dc; v_adj := map wrap32 (concat va); c_adj := map wrap32 (concat ca);
          c_map := map wrap32 (concat cm); v_map := map wrap32 (concat vm); v_deg := vdeg; c_deg := cdeg; p_matrix := None; p_gen := None |}.
(* 91 open(...) raises FileNotFoundError; 138-139 *)
Definition get_ldpc_code_params (path : string) (compute_matrix : bool) (fs : fsys) : res ldpc :=
  match lookup path fs with
  | None => Err FileNotFoundError
  | Some s =>
      p <- parse_ldpc s ;;
      if compute_matrix then let '(p', r) := build_matrix p in _ <- r ;; Ok p' else Ok p
  end.

(* ---------------------------------------------------------------- triang_ldpc_systematic_encode: ldpc.py 302-354 *)
(* x % 2 on floats, then astype(int8): truncation of a number of [0, 2) *)
Definition qmod2_int (q : Q) : Z := Qfloor (q - 2 * inject_Z (Qfloor (q / 2)))%Q.
(* The result is the list of coded blocks (the columns of the returned array; the 1-d array obtained by squeeze()
   when there is one block is that block).  Message entries are bits. *)
Definition triang_encode (message : list Z) (p : ldpc) (pad : bool) : ldpc * res (list (list Z)) :=
  let '(p', r) := match p_gen p, p_matrix p with Some _, Some _ => (p, Ok tt) | _, _ => build_matrix p end in
  (p', _ <- r ;;
   match p_gen p' with
   | None => Err TypeError
   | Some (k, G) =>
       if (k =? 0)%nat then Err ZeroDivisionError
       else
         let md := (length message mod k)%nat in
         if negb (md =? 0)%nat && negb pad then Err ValueError
         else
           let msg := if (md =? 0)%nat then message else message ++ repeat 0 (k - md) in
           Ok (map (fun b => b ++ map (fun g => qmod2_int (qdot g (map inject_Z b))) G) (chunks k (length msg / k) msg))
   end).
