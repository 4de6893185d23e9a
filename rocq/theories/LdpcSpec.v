(* Vocabulary of the LDPC properties: parity checks, what a parameter dictionary describes, invertibility. *)
From Coq Require Import QArith.
From Verif Require Import Base LdpcModel.
Open Scope Z_scope.

(* entry (i, j) of a matrix given by rows *)
Definition hij (rows : list (list Z)) (i j : nat) : Z := nth j (nth i rows []) 0.
Definition sumto (n : nat) (f : nat -> Z) : Z := Zsum (map f (seq 0 n)).

(* a 0/1 matrix with all rows of the same length *)
Definition binary (H : arr2) : Prop := shaped H /\ Forall bits (a_rows H).

(* x satisfies every parity check of H *)
Definition satisfies (H : arr2) (x : list Z) : Prop :=
  forall i, (i < length (a_rows H))%nat -> sumto (a_cols H) (fun j => hij (a_rows H) i j * nth j x 0) mod 2 = 0.

(* the adjacency lists of the dictionary describe the matrix H: row c has its ones exactly at the listed positions *)
Definition describes (p : ldpc) (H : arr2) : Prop :=
  binary H /\ n_vnodes p = a_cols H /\ n_cnodes p = length (a_rows H) /\
  length (c_adj p) = (n_cnodes p * max_cdeg p)%nat /\ length (c_deg p) = n_cnodes p /\
  forall c, (c < n_cnodes p)%nat ->
    let d := nth c (c_deg p) 0 in
    let nb i := nth (c * max_cdeg p + i) (c_adj p) (-1) in
    0 <= d <= Z.of_nat (max_cdeg p) /\
    (forall i, (i < Z.to_nat d)%nat -> 0 <= nb i < Z.of_nat (n_vnodes p)) /\
    (forall j, (j < n_vnodes p)%nat -> hij (a_rows H) c j = 1 <-> exists i, (i < Z.to_nat d)%nat /\ nb i = Z.of_nat j).

(* the last m columns of H form a matrix with an integer inverse *)
Definition int_invertible (H : arr2) : Prop :=
  let m := length (a_rows H) in let k := (a_cols H - m)%nat in
  exists B : nat -> nat -> Z, forall i l, (i < m)%nat -> (l < m)%nat ->
    sumto m (fun q => B i q * hij (a_rows H) q (k + l)) = if (i =? l)%nat then 1 else 0.
(* the last m columns of H are unit triangular *)
Definition unit_lower (H : arr2) : Prop :=
  let m := length (a_rows H) in let k := (a_cols H - m)%nat in
  forall i l, (i < m)%nat -> (l < m)%nat -> (i <= l)%nat -> hij (a_rows H) i (k + l) = if (i =? l)%nat then 1 else 0.
Definition unit_upper (H : arr2) : Prop :=
  let m := length (a_rows H) in let k := (a_cols H - m)%nat in
  forall i l, (i < m)%nat -> (l < m)%nat -> (l <= i)%nat -> hij (a_rows H) i (k + l) = if (i =? l)%nat then 1 else 0.
(* the last m columns are linearly dependent over the rationals *)
Definition singular (H : arr2) : Prop :=
  let m := length (a_rows H) in let k := (a_cols H - m)%nat in
  exists z : nat -> Z, (exists l, (l < m)%nat /\ z l <> 0) /\ forall i, (i < m)%nat -> sumto m (fun l => hij (a_rows H) i (k + l) * z l) = 0.

(* coded blocks: each starts with the message bits (zero padded to whole blocks) and is a codeword *)
Definition coded (H : arr2) (msg : list Z) (blocks : list (list Z)) : Prop :=
  let n := a_cols H in let k := (n - length (a_rows H))%nat in
  (exists z, (z < k)%nat /\ concat (map (firstn k) blocks) = msg ++ repeat 0 z) /\
  Forall (fun b => length b = n /\ bits b /\ satisfies H b) blocks.

(* the same for the variable nodes: column v has its ones exactly at the listed rows *)
Definition describes_columns (p : ldpc) (H : arr2) : Prop :=
  length (v_adj p) = (n_vnodes p * max_vdeg p)%nat /\ length (v_deg p) = n_vnodes p /\
  forall v, (v < n_vnodes p)%nat ->
    let d := nth v (v_deg p) 0 in
    let nb i := nth (v * max_vdeg p + i) (v_adj p) (-1) in
    0 <= d <= Z.of_nat (max_vdeg p) /\
    (forall i, (i < Z.to_nat d)%nat -> 0 <= nb i < Z.of_nat (n_cnodes p)) /\
    (forall c, (c < n_cnodes p)%nat -> hij (a_rows H) c v = 1 <-> exists i, (i < Z.to_nat d)%nat /\ nb i = Z.of_nat c).
(* cnode_vnode_map and vnode_cnode_map: if v is the i-th neighbour of c then c is the q-th neighbour of v, q being the
   entry (c, i) of cnode_vnode_map, and conversely *)
Definition maps_inverse (p : ldpc) : Prop :=
  length (c_map p) = length (c_adj p) /\ length (v_map p) = length (v_adj p) /\
  (forall c i, (c < n_cnodes p)%nat -> (i < Z.to_nat (nth c (c_deg p) 0%Z))%nat ->
     let v := Z.to_nat (nth (c * max_cdeg p + i) (c_adj p) (-1)) in
     let q := nth (c * max_cdeg p + i) (c_map p) (-1) in
     0 <= q < nth v (v_deg p) 0 /\ nth (v * max_vdeg p + Z.to_nat q) (v_adj p) (-1) = Z.of_nat c) /\
  (forall v i, (v < n_vnodes p)%nat -> (i < Z.to_nat (nth v (v_deg p) 0%Z))%nat ->
     let c := Z.to_nat (nth (v * max_vdeg p + i) (v_adj p) (-1)) in
     let q := nth (v * max_vdeg p + i) (v_map p) (-1) in
     0 <= q < nth c (c_deg p) 0 /\ nth (c * max_cdeg p + Z.to_nat q) (c_adj p) (-1) = Z.of_nat v).
Definition no_zero_row (H : arr2) : Prop := forall i, (i < length (a_rows H))%nat -> exists j, (j < a_cols H)%nat /\ hij (a_rows H) i j <> 0.
Definition no_zero_column (H : arr2) : Prop := forall j, (j < a_cols H)%nat -> exists i, (i < length (a_rows H))%nat /\ hij (a_rows H) i j <> 0.
