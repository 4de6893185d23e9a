(* Vocabulary of the MIMO properties C45-C49, independent of the detectors. *)
From Coq Require Import Permutation Sorted.
From Verif Require Import Base Cplx ModemModel MimoModel.
Open Scope Z_scope.

(* h has n columns *)
Definition columns (n : nat) (h : list (list C)) : Prop := Forall (fun row => length row = n) h.
(* x is a vector of n points of the constellation *)
Definition vector_of (c : list C) (n : nat) (x : list C) : Prop := length x = n /\ Forall (fun s => In s c) x.
(* (h x)_i = sum over j of h_ij x_j, and the squared distance |y - h x|^2 *)
Definition apply_row (row x : list C) : C := Csum (map (fun j => (nth j row C0 * nth j x C0)%C) (seq 0 (length x))).
Definition sq_dist (y : list C) (h : list (list C)) (x : list C) : R :=
  Rsum (map (fun i => Cnorm2 (nth i y C0 - apply_row (nth i h []) x)%C) (seq 0 (length h))).
(* x is a maximum-likelihood decision for y *)
Definition ml_decision (y : list C) (h : list (list C)) (c : list C) (n : nat) (x : list C) : Prop :=
  vector_of c n x /\ forall x', vector_of c n x' -> (sq_dist y h x <= sq_dist y h x')%R.

(* what numpy's qr returns for a matrix h with n columns and at least n rows (reduced mode): h = q r, the columns of q are
   orthonormal, r is n x n and zero below the diagonal *)
Definition is_qr (h : list (list C)) (n : nat) (q r : list (list C)) : Prop :=
  columns n h /\ columns n q /\ length q = length h /\ length r = n /\ columns n r /\
  (forall i j, (i < length h)%nat -> (j < n)%nat -> nth j (nth i h []) C0 = Csum (map (fun k => (nth k (nth i q []) C0 * nth j (nth k r []) C0)%C) (seq 0 n))) /\
  (forall a b, (a < n)%nat -> (b < n)%nat ->
     Csum (map (fun i => (Cconj (nth a (nth i q []) C0) * nth b (nth i q []) C0)%C) (seq 0 (length h))) = if (a =? b)%nat then C1 else C0) /\
  (forall i j, (j < i < n)%nat -> nth j (nth i r []) C0 = C0).

(* numpy's argsort on floats: some permutation of the indices that sorts the values (ties in any order) *)
Definition sorting (argsort : list R -> list nat) : Prop :=
  forall l, Permutation (argsort l) (seq 0 (length l)) /\ StronglySorted Rle (map (fun i => nth i l 0%R) (argsort l)).

(* the user's demapper works symbol by symbol: b bits, [lab s], for each point of the constellation *)
Definition demaps (demode : list C -> res (list Z)) (c : list C) (b : nat) (lab : C -> list Z) : Prop :=
  (forall s, In s c -> length (lab s) = b /\ Forall (fun t => t = 0 \/ t = 1) (lab s)) /\
  (forall x, Forall (fun s => In s c) x -> demode x = Ok (flat_map lab x)).

(* the smallest squared distance over the listed points that satisfy P: None if there is no such point *)
Definition smallest (y : list C) (h : list (list C)) (pts : list (list C)) (P : list C -> Prop) (d : option R) : Prop :=
  match d with
  | None => forall x, In x pts -> ~ P x
  | Some v => (exists x, In x pts /\ P x /\ sq_dist y h x = v) /\ forall x, In x pts -> P x -> (v <= sq_dist y h x)%R
  end.

(* the max-log LLR for noise variance v from the smallest squared distances with bit 0 and with bit 1 *)
Definition max_log_value (v : R) (d0 d1 : option R) : ext :=
  match d0, d1 with
  | Some a, Some b => Fin ((b - a) / (2 * v))
  | None, Some _ => MInf        (* no listed point has bit 0 *)
  | Some _, None => PInf        (* no listed point has bit 1 *)
  | None, None => NaN
  end.
(* h is injective: only the zero vector is mapped to zero *)
Definition injective (n : nat) (h : list (list C)) : Prop :=
  forall v, length v = n -> (forall row, In row h -> apply_row row v = C0) -> v = repeat C0 n.

(* |h v|^2 *)
Definition energy_of (h : list (list C)) (v : list C) : R := Rsum (map (fun row => Cnorm2 (apply_row row v)) h).
(* y is h x plus a noise (of energy |y - h x|^2) less than half as long as the distance from h x to every other noise-free signal *)
Definition ml_margin (y : list C) (h : list (list C)) (c : list C) (n : nat) (x : list C) : Prop :=
  forall x', vector_of c n x' -> x' <> x -> (4 * sq_dist y h x < sq_dist (map (fun row => apply_row row x) h) h x')%R.
(* the same against every vector whose last non-zero entry is a difference of two points: the entries before it are arbitrary
   complex numbers, as if the antennas not yet decided could send anything *)
Definition successive_margin (y : list C) (h : list (list C)) (c : list C) (n : nat) (x : list C) : Prop :=
  forall v j a b, length v = n -> (j < n)%nat -> In a c -> In b c -> a <> b -> nth j v C0 = (a - b)%C -> (forall l, (j < l < n)%nat -> nth l v C0 = C0) ->
    (4 * sq_dist y h x < energy_of h v)%R.
(* a strictly positive (negative) LLR, possibly infinite *)
Definition positive (e : ext) : Prop := match e with Fin x => (0 < x)%R | PInf => True | MInf => False | NaN => False end.
Definition negative (e : ext) : Prop := match e with Fin x => (x < 0)%R | MInf => True | PInf => False | NaN => False end.
