(* Model of /repo/commpy/channelcoding/gfields.py and algcode.py.
   Polynomials over GF(2) are the Python ints whose bit i is the coefficient of x^i. *)
From Verif Require Import Base UtilModel.

(* len(bin(x)) - 2 for x >= 0: the number of binary digits (bin(0) = '0b0' has one digit).  Only
   differences and comparisons of len(bin(.)) are used, so the prefix '0b' does not matter. *)
Definition bin_len (x : Z) : Z := if x =? 0 then 1 else Z.log2 x + 1.

(* gfields.py 165-175 polydivide.  "r = y; while len(bin(r)) >= len(bin(y))" runs the body at least
   once; [fuel] bounds the number of iterations.  Operands are non-negative. *)
Fixpoint pd_loop (fuel : nat) (x y : Z) : res Z :=
  match fuel with
  | O => Err OutOfFuel
  | S f =>
      let shift_count := bin_len x - bin_len y in
      let d := if 0 <? shift_count then Z.shiftl y shift_count else y in
      let x' := Z.lxor x d in
      if bin_len y <=? bin_len x' then pd_loop f x' y else Ok x'
  end.

Definition polydivide (x y : Z) : res Z := pd_loop (Z.to_nat (bin_len x) + 3) x y.

(* numpy.convolve(a, b) (full): c[i] = sum_j a[j] * b[i - j]; raises on empty operands *)
Definition convolve (a b : list Z) : res (list Z) :=
  match a, b with
  | [], _ | _, [] => Err ValueError
  | _, _ => Ok (map (fun i => Zsum (map (fun j => nth j a 0 * (if (j <=? i)%nat then nth (i - j) b 0 else 0)) (seq 0 (length a))))
                    (seq 0 (length a + length b - 1)))
  end.

(* gfields.py 180: bitarray2dec(convolve(x_array, y_array) % 2) *)
Definition conv_mod2 (a b : list Z) : res (list Z) :=
  c <- convolve a b ;; Ok (map (fun v => v mod 2) c).

(* gfields.py 177-181 polymultiply *)
Definition polymultiply (x y : Z) (m : nat) (prim_poly : Z) : res Z :=
  xa <- dec2bitarray x m ;; ya <- dec2bitarray y m ;;
  c <- conv_mod2 xa ya ;; polydivide (bitarray2dec c) prim_poly.

(* gfields.py 49-50 *)
Definition primpoly_array : list Z :=
  [0; 3; 7; 11; 19; 37; 67; 137; 285; 529; 1033; 2053; 4179; 8219; 17475; 32771; 69643].

(* A GF object.  [elements] is absent when neither branch of gfields.py 52-55 was taken: every use of
   the attribute then raises AttributeError. *)
Record GF := { gf_m : nat; gf_prim : Z; gf_elements : option (list Z) }.

(* gfields.py 47-55 with an int argument *)
Definition GF_int (x : Z) (m : nat) : res GF :=
  match nth_error primpoly_array m with
  | None => Err IndexError
  | Some p => Ok {| gf_m := m; gf_prim := p;
                    gf_elements := if (0 <=? x) && (x <? 2 ^ Z.of_nat m) then Some [x] else None |}
  end.

(* gfields.py 47-55 with a 1-D ndarray argument (no range check; empty arrays are not stored) *)
Definition GF_arr (x : list Z) (m : nat) : res GF :=
  match nth_error primpoly_array m with
  | None => Err IndexError
  | Some p => Ok {| gf_m := m; gf_prim := p; gf_elements := match x with [] => None | _ => Some x end |}
  end.

Definition elements (g : GF) : res (list Z) :=
  match gf_elements g with Some l => Ok l | None => Err AttributeError end.

(* gfields.py 58-62 __add__ *)
Definition gf_add (a b : GF) : res GF :=
  ea <- elements a ;; eb <- elements b ;;
  if (length ea =? length eb)%nat
  then GF_arr (map (fun xy => Z.lxor (fst xy) (snd xy)) (combine ea eb)) (gf_m a)
  else Err ValueError.

(* gfields.py 65-72 __mul__ *)
Definition gf_mul (a b : GF) : res GF :=
  eb <- elements b ;; ea <- elements a ;;
  if (length eb =? length ea)%nat
  then p <- mapM (fun xy => polymultiply (fst xy) (snd xy) (gf_m a) (gf_prim a)) (combine ea eb) ;; GF_arr p (gf_m a)
  else Err ValueError.

(* 2**i for a numpy.int64 exponent: the result is an int64, it wraps around from i = 63 on *)
Definition pow2_int64 (i : Z) : res Z :=
  if i <? 0 then Err ValueError
  else Ok (if i <? 63 then 2 ^ i else if i =? 63 then - 2 ^ 63 else 0).

(* gfields.py 74-84 power_to_tuple *)
Definition power_to_tuple (g : GF) : res GF :=
  es <- elements g ;;
  y <- mapM (fun i => p <- pow2_int64 i ;;
                      if p <? 2 ^ Z.of_nat (gf_m g) then Ok p else polydivide p (gf_prim g)) es ;;
  GF_arr y (gf_m g).

(* gfields.py 97-98: one step of the LFSR loop; -(t) & q is q when t = 1 and 0 when t = 0 *)
Definition gf_next (m : nat) (prim cur : Z) : Z :=
  Z.lxor (Z.land (Z.shiftl cur 1) (2 ^ Z.of_nat m - 1))
         (Z.land (- (Z.shiftr (Z.land cur (2 ^ (Z.of_nat m - 1))) (Z.of_nat m - 1)))
                 (Z.land prim (2 ^ Z.of_nat m - 1))).

(* gfields.py 93-99: the while loop *)
Fixpoint log_loop (fuel : nat) (m : nat) (prim i cur power : Z) : res Z :=
  match fuel with
  | O => Err OutOfFuel
  | S f => if cur =? i then Ok power else log_loop f m prim i (gf_next m prim cur) (power + 1)
  end.

(* gfields.py 86-103 tuple_to_power; the number of iterations allowed is 2^m (more never helps:
   see the proofs) *)
Definition tuple_to_power_elt (m : nat) (prim i : Z) : res Z :=
  if i =? 0 then Ok 0 else log_loop (Z.to_nat (2 ^ Z.of_nat m)) m prim i 1 0.

Definition tuple_to_power (g : GF) : res GF :=
  es <- elements g ;;
  y <- mapM (tuple_to_power_elt (gf_m g) (gf_prim g)) es ;;
  GF_arr y (gf_m g).

(* gfields.py 105-113 order; the float division by the gcd is exact *)
Definition gf_order (g : GF) : res (list Z) :=
  p <- tuple_to_power g ;; es <- elements p ;;
  Ok (map (fun i => (2 ^ Z.of_nat (gf_m g) - 1) / Z.gcd i (2 ^ Z.of_nat (gf_m g) - 1)) es).

(* gfields.py 129-131: for idx2 in range(len(x)): mark the unmarked elements equal to v *)
Definition mark_equal (x mark : list Z) (v c : Z) : list Z :=
  map (fun xm => if (snd xm =? 0) && (fst xm =? v) then c else snd xm) (combine x mark).

(* gfields.py 128-132: while (a*(2**i) % (2**m-1)) != a *)
Fixpoint coset_loop (fuel : nat) (N a i c : Z) (x mark : list Z) : res (list Z) :=
  match fuel with
  | O => Err OutOfFuel
  | S f =>
      let v := (a * 2 ^ i) mod N in
      if v =? a then Ok mark else coset_loop f N a (i + 1) c x (mark_equal x mark v c)
  end.

(* gfields.py 123-133: the loop over idx; [idxs] are the remaining indices *)
Fixpoint cosets_loop (m : nat) (idxs : list nat) (x mark : list Z) (count : Z) : res (list Z * Z) :=
  match idxs with
  | [] => Ok (mark, count)
  | idx :: rest =>
      if nth idx mark 0 =? 0 then
        mark' <- coset_loop (S m) (2 ^ Z.of_nat m - 1) (nth idx x 0) 1 count x (upd mark idx count) ;;
        cosets_loop m rest x mark' (count + 1)
      else cosets_loop m rest x mark count
  end.

(* elements[mark_list == counts] *)
Definition select_marked (es mark : list Z) (c : Z) : list Z :=
  map fst (filter (fun em => snd em =? c) (combine es mark)).

(* gfields.py 115-138 cosets *)
Definition gf_cosets (g : GF) : res (list GF) :=
  p <- tuple_to_power g ;; x <- elements p ;; es <- elements g ;;
  mc <- cosets_loop (gf_m g) (seq 0 (length x)) x (repeat 0 (length x)) 1 ;;
  let '(mark, count) := mc in
  mapM (fun c => GF_arr (select_marked es mark (Z.of_nat c)) (gf_m g)) (seq 1 (Z.to_nat (count - 1))).

(* gfields.py 152-159: multiply t (lowest coefficient first) by (X + root), as written: t2 is
   [0]*(len(t)-1) ++ [1, root] ++ [0]*(len(t)-1), prod_poly[n] = XOR_k t[k]*t2[n+k], t = prod_poly[::-1] *)
Definition mul_root (m : nat) (prim : Z) (t : list Z) (root : Z) : res (list Z) :=
  let L := length t in
  let t2 := repeat 0 (L - 1) ++ [1; root] ++ repeat 0 (L - 1) in
  prod <- mapM (fun n => foldM (fun s k => v <- polymultiply (nth k t 0) (nth (n + k) t2 0) m prim ;; Ok (Z.lxor s v))
                               (seq 0 L) 0)
               (seq 0 (length t2 - L + 1)) ;;
  Ok (rev prod).

(* gfields.py 150-160: the minimal polynomial computed from one coset *)
Definition coset_poly (m : nat) (prim : Z) (es : list Z) : res Z :=
  match es with
  | [] => Err IndexError
  | e0 :: rest => t <- foldM (mul_root m prim) rest [e0; 1] ;; Ok (bitarray2dec (rev t))
  end.

(* gfields.py 140-162 minpolys *)
Definition gf_minpolys (g : GF) : res (list Z) :=
  full <- GF_arr (map Z.of_nat (seq 0 (Z.to_nat (2 ^ Z.of_nat (gf_m g))))) (gf_m g) ;;
  cosets <- gf_cosets full ;;
  es <- elements g ;;
  ls <- mapM (fun x =>
          l <- mapM (fun c => ce <- elements c ;;
                        if existsb (Z.eqb x) ce then p <- coset_poly (gf_m g) (gf_prim g) ce ;; Ok [p] else Ok []) cosets ;;
          Ok (concat l)) es ;;
  Ok (concat ls).

(* gfields.py 184-195 poly_to_string, x >= 0.  The string "x^a + x^b + " with the last two characters
   dropped is modelled as the list of exponents it prints, in printing order. *)
Fixpoint pts_loop (fuel : nat) (x i : Z) : res (list Z) :=
  match fuel with
  | O => Err OutOfFuel
  | S f => if x =? 0 then Ok []
           else r <- pts_loop f (Z.shiftr x 1) (i + 1) ;; Ok (if x mod 2 =? 1 then i :: r else r)
  end.

Definition poly_to_string (x : Z) : res (list Z) := pts_loop (Z.to_nat (bin_len x) + 1) x 0.

(* algcode.py 34-36: for m in arange(1, 18): if (2**m-1) % n == 0: break *)
Fixpoint find_m (n : Z) (ms : list nat) (last : nat) : nat :=
  match ms with
  | [] => last
  | m :: ms' => if (2 ^ Z.of_nat m - 1) mod n =? 0 then m else find_m n ms' m
  end.

(* bitarray2dec on an int8 array of at least 64 entries goes through 2**63, which NumPy types as uint64:
   int8 * uint64 is float64, so the running sum is a float from then on.  [isfloat] records it. *)
Definition b2d_is_float (b : list Z) : bool := (64 <=? Z.of_nat (length b)).

(* algcode.py 56-62: gpoly = product of the selected minimal polynomials.  dec2bitarray(gpoly, .) on a
   float raises TypeError (object of type 'numpy.float64' has no len()). *)
Fixpoint gen_product (w : nat) (gpoly : Z) (isfloat : bool) (ps : list Z) : res Z :=
  match ps with
  | [] => Ok gpoly
  | p :: ps' =>
      if isfloat then Err TypeError else
      ga <- dec2bitarray gpoly w ;; pa <- dec2bitarray p w ;; c <- conv_mod2 ga pa ;;
      gen_product w (bitarray2dec c) (b2d_is_float c) ps'
  end.

Definition select_bits (bs l : list Z) : list Z := map snd (filter (fun bl => fst bl =? 1) (combine bs l)).

(* algcode.py 11-64 cyclic_code_genpoly for n >= 1, k any integer *)
Definition cyclic_code_genpoly (n : nat) (k : Z) : res (list Z) :=
  if (n mod 2 =? 0)%nat then Err ValueError else
  let m := find_m (Z.of_nat n) (seq 1 17) 1 in
  x_gf <- GF_arr (map Z.of_nat (seq 1 (Z.to_nat (2 ^ Z.of_nat m - 1)))) m ;;
  coset_fields <- gf_cosets x_gf ;;
  fes <- mapM elements coset_fields ;;
  let coset_leaders := map (fun es => nth 0 es 0) fes in
  let minpol_degrees := map (fun es => Z.of_nat (length es)) fes in
  y_gf <- GF_arr coset_leaders m ;;
  minpol_list <- gf_minpolys y_gf ;;
  ls <- mapM (fun i =>
          i_array <- dec2bitarray (Z.of_nat i) (length minpol_list) ;;
          if Zsum (select_bits i_array minpol_degrees) =? Z.of_nat n - k
          then g <- gen_product (Z.to_nat (2 ^ Z.of_nat m)) 1 false (select_bits i_array minpol_list) ;; Ok [g]
          else Ok [])
        (seq 1 (Z.to_nat (2 ^ Z.of_nat (length minpol_list) - 1))) ;;
  Ok (concat ls).
