(* Properties C13 - C20: Galois fields and cyclic codes (gfields.py, algcode.py).
   P x (GFPoly.v) is the polynomial over GF(2) whose coefficient of X^i is bit i of the integer x;
   P pp is the modulus of the field, %% and %| are remainder and divisibility of polynomials,
   q \Po e is the polynomial q evaluated at e.  See GFSpec.v for field_of, in_field and gf. *)
From Verif Require Import Base UtilModel GFModel GFPoly GFSpec GFTop.
Set Warnings "-ambiguous-paths,-notation-overridden".
From mathcomp Require Import all_ssreflect fingroup ssralg finalg zmodp poly polydiv.
Import GRing.Theory.
Local Open Scope ring_scope.

(* ---------------------------------------------------------------- C13 *)

Theorem C13_polydivide :
forall x y : Z, (0 <= x)%Z -> (2 <= y)%Z ->
    exists r : Z, polydivide x y = Ok r /\ (0 <= r < 2 ^ Z.log2 y)%Z /\ P r = P x %% P y.
Proof. exact C13_polydivide_proof. Qed.
Print Assumptions C13_polydivide.
(* x^5+x^4+x^2+1 = 53, y = x^3+x+1 = 11: remainder x^2 *)
Example C13_witness : polydivide 53 11 = Ok 4%Z. Proof. reflexivity. Qed.

Theorem C13_polydivide_unique :
forall x y r : Z, (0 <= x)%Z -> (2 <= y)%Z -> (0 <= r < 2 ^ Z.log2 y)%Z ->
    (exists q : {poly 'F_2}, P x = q * P y + P r) -> polydivide x y = Ok r.
Proof. exact C13_polydivide_unique_proof. Qed.
Print Assumptions C13_polydivide_unique.
Example C13_unique_witness : exists q : {poly 'F_2}, P 53 = q * P 11 + P 4.
Proof. case: (C13_polydivide 53 11); [lia|lia|]. move=> r [E [_ H]]. exists (P 53 %/ P 11). have -> : 4%Z = r by case: E => <-. rewrite H. exact: divp_eq. Qed.

Theorem C13_polydivide_hangs :
forall (fuel : nat) (x y : Z), (0 <= y <= 1)%Z -> pd_loop fuel x y = Err OutOfFuel.
Proof. exact C13_polydivide_hangs_proof. Qed.
Print Assumptions C13_polydivide_hangs.
Example C13_hangs_witness : pd_loop 1000 6 1 = Err OutOfFuel /\ pd_loop 1000 6 2 = Ok 0%Z. Proof. split; reflexivity. Qed.

(* ---------------------------------------------------------------- C14 *)

Theorem C14_operations :
forall (m : nat) (pp : Z) (a b : list Z), field_of m pp -> in_field m a -> in_field m b -> length a = length b ->
    exists s p : list Z,
      gf_add (gf m pp a) (gf m pp b) = Ok (gf m pp s) /\ gf_mul (gf m pp a) (gf m pp b) = Ok (gf m pp p) /\
      in_field m s /\ in_field m p /\ length s = length a /\ length p = length a /\
      forall i : nat, Nat.lt i (length a) ->
        P (List.nth i s 0%Z) = P (List.nth i a 0%Z) + P (List.nth i b 0%Z) /\
        P (List.nth i p 0%Z) = (P (List.nth i a 0%Z) * P (List.nth i b 0%Z)) %% P pp.
Proof. exact C14_operations_proof. Qed.
Print Assumptions C14_operations.
Example C14_witness : field_of 3 11 /\ in_field 3 [:: 6; 7]%Z /\
  gf_mul (gf 3 11 [:: 6; 7]%Z) (gf 3 11 [:: 5; 7]%Z) = Ok (gf 3 11 [:: 3; 3]%Z).
Proof. split; [split; [lia|reflexivity]|]. split; [split; [discriminate|]|reflexivity]. repeat constructor; lia. Qed.

Theorem C14_field_laws :
forall (m : nat) (pp : Z) (a b c : list Z), field_of m pp -> in_field m a -> in_field m b -> in_field m c ->
    length a = length b -> length b = length c ->
    let A := gf m pp a in let B := gf m pp b in let C := gf m pp c in
    let zeros := gf m pp (List.repeat 0%Z (length a)) in let ones := gf m pp (List.repeat 1%Z (length a)) in
    gf_add A B = gf_add B A /\ gf_mul A B = gf_mul B A /\
    (ab <- gf_add A B ;; gf_add ab C) = (bc <- gf_add B C ;; gf_add A bc) /\
    (ab <- gf_mul A B ;; gf_mul ab C) = (bc <- gf_mul B C ;; gf_mul A bc) /\
    (bc <- gf_add B C ;; gf_mul A bc) = (ab <- gf_mul A B ;; ac <- gf_mul A C ;; gf_add ab ac) /\
    gf_add A zeros = Ok A /\ gf_mul A ones = Ok A /\ gf_add A A = Ok zeros /\
    (List.Forall (fun z => z <> 0%Z) a -> exists a', in_field m a' /\ length a' = length a /\ gf_mul A (gf m pp a') = Ok ones).
Proof. exact C14_field_laws_proof. Qed.
Print Assumptions C14_field_laws.
Example C14_laws_witness : field_of 8 285 /\ in_field 8 [:: 87; 131]%Z /\ in_field 8 [:: 19; 200]%Z /\ in_field 8 [:: 1; 254]%Z /\
  gf_mul (gf 8 285 [:: 87; 131]%Z) (gf 8 285 [:: 19; 200]%Z) = Ok (gf 8 285 [:: 224; 165]%Z).
Proof. split; [split; [lia|reflexivity]|]. do 3!(split; [split; [discriminate|repeat constructor; lia]|]). vm_compute. reflexivity. Qed.

Theorem C14_length_mismatch :
forall (m : nat) (pp : Z) (a b : list Z), length a <> length b ->
    gf_add (gf m pp a) (gf m pp b) = Err ValueError /\ gf_mul (gf m pp a) (gf m pp b) = Err ValueError.
Proof. exact C14_length_mismatch_proof. Qed.
Print Assumptions C14_length_mismatch.
Example C14_mismatch_witness : gf_mul (gf 3 11 [:: 1; 2]%Z) (gf 3 11 [:: 5]%Z) = Err ValueError. Proof. reflexivity. Qed.

Theorem C14_constructor :
(* an int is stored when it lies in the field; outside, the object has no elements and every operation raises
     AttributeError; an array is stored as it is; no field beyond m = 16 *)
  forall (m : nat) (pp x : Z), field_of m pp ->
    ((0 <= x < 2 ^ Z.of_nat m)%Z -> GF_int x m = Ok (gf m pp [:: x])) /\
    (~ (0 <= x < 2 ^ Z.of_nat m)%Z -> exists g : GF, GF_int x m = Ok g /\
       power_to_tuple g = Err AttributeError /\ tuple_to_power g = Err AttributeError /\ gf_order g = Err AttributeError /\ gf_cosets g = Err AttributeError /\
       forall h : GF, gf_add g h = Err AttributeError /\ gf_add h g = Err AttributeError /\ gf_mul g h = Err AttributeError /\ gf_mul h g = Err AttributeError) /\
    (forall xs : list Z, xs <> [::] -> GF_arr xs m = Ok (gf m pp xs)) /\
    (forall m' : nat, Nat.lt 16 m' -> GF_int x m' = Err IndexError /\ forall xs : list Z, GF_arr xs m' = Err IndexError).
Proof. exact C14_constructor_proof. Qed.
Print Assumptions C14_constructor.
Example C14_constructor_witness : field_of 3 11 /\ GF_int 7 3 = Ok (gf 3 11 [:: 7]%Z) /\ GF_int 8 3 = Ok {| gf_m := 3; gf_prim := 11; gf_elements := None |}.
Proof. split; [split; [lia|reflexivity]|]. split; reflexivity. Qed.

(* ---------------------------------------------------------------- C15 *)

Theorem C15_tuple_to_power :
forall (m : nat) (pp : Z) (a : list Z), field_of m pp -> in_field m a ->
    exists l : list Z, tuple_to_power (gf m pp a) = Ok (gf m pp l) /\ length l = length a /\
      forall i : nat, Nat.lt i (length a) ->
        (0 <= List.nth i l 0 < 2 ^ Z.of_nat m - 1)%Z /\
        (List.nth i a 0%Z = 0%Z -> List.nth i l 0%Z = 0%Z) /\
        (List.nth i a 0%Z <> 0%Z -> P (List.nth i a 0%Z) = 'X^(Z.to_nat (List.nth i l 0%Z)) %% P pp).
Proof. exact C15_tuple_to_power_proof. Qed.
Print Assumptions C15_tuple_to_power.
Example C15_witness : tuple_to_power (gf 4 19 [:: 0; 1; 2; 12; 9]%Z) = Ok (gf 4 19 [:: 0; 0; 1; 6; 14]%Z) /\
  field_of 4 19 /\ in_field 4 [:: 0; 1; 2; 12; 9]%Z.
Proof. split; [vm_compute; reflexivity|]. split; [split; [lia|reflexivity]|]. split; [discriminate|repeat constructor; lia]. Qed.

Theorem C15_power_to_tuple :
forall (m : nat) (pp : Z) (l : list Z), field_of m pp -> l <> [::] -> List.Forall (fun i => 0 <= i < 63)%Z l ->
    exists a : list Z, power_to_tuple (gf m pp l) = Ok (gf m pp a) /\ in_field m a /\ length a = length l /\
      forall i : nat, Nat.lt i (length l) -> P (List.nth i a 0%Z) = 'X^(Z.to_nat (List.nth i l 0%Z)) %% P pp.
Proof. exact C15_power_to_tuple_proof. Qed.
Print Assumptions C15_power_to_tuple.
Example C15_ptt_witness : power_to_tuple (gf 4 19 [:: 3; 4; 62]%Z) = Ok (gf 4 19 [:: 8; 3; 4]%Z).
Proof. vm_compute. reflexivity. Qed.

Theorem C15_roundtrip :
forall (m : nat) (pp : Z) (a : list Z), field_of m pp -> (m <= 6)%coq_nat -> in_field m a -> List.Forall (fun z => z <> 0%Z) a ->
    (l <- tuple_to_power (gf m pp a) ;; power_to_tuple l) = Ok (gf m pp a).
Proof. exact C15_roundtrip_proof. Qed.
Print Assumptions C15_roundtrip.
Example C15_roundtrip_witness : (l <- tuple_to_power (gf 6 67 [:: 33; 1; 62]%Z) ;; power_to_tuple l) = Ok (gf 6 67 [:: 33; 1; 62]%Z).
Proof. vm_compute. reflexivity. Qed.

Theorem C15_zero_roundtrip_refuted :
forall (m : nat) (pp : Z), field_of m pp ->
    (l <- tuple_to_power (gf m pp [:: 0%Z]) ;; power_to_tuple l) = Ok (gf m pp [:: 1%Z]).
Proof. exact C15_zero_roundtrip_refuted_proof. Qed.
Print Assumptions C15_zero_roundtrip_refuted.


Theorem C15_roundtrip_m7_refuted :
exists a : list Z, field_of 7 137 /\ in_field 7 a /\ List.Forall (fun z => z <> 0%Z) a /\
    (l <- tuple_to_power (gf 7 137 a) ;; power_to_tuple l) = Ok (gf 7 137 [:: - 2 ^ 63]%Z).
Proof. exact C15_roundtrip_m7_refuted_proof. Qed.
Print Assumptions C15_roundtrip_m7_refuted.

Theorem C15_out_of_range_hangs :
forall (fuel m : nat) (pp z : Z), field_of m pp -> (z < 0 \/ 2 ^ Z.of_nat m <= z)%Z ->
    log_loop fuel m pp z 1 0 = Err OutOfFuel.
Proof. exact C15_out_of_range_hangs_proof. Qed.
Print Assumptions C15_out_of_range_hangs.
Example C15_hangs_witness : field_of 3 11 /\ log_loop 100 3 11 8 1 0 = Err OutOfFuel. Proof. split; [split; [lia|reflexivity]|vm_compute; reflexivity]. Qed.

(* ---------------------------------------------------------------- C16 *)

Theorem C16_order :
forall (m : nat) (pp : Z) (a : list Z), field_of m pp -> in_field m a ->
    exists os : list Z, gf_order (gf m pp a) = Ok os /\ length os = length a /\
      forall i : nat, Nat.lt i (length a) ->
        let x := List.nth i a 0%Z in let o := List.nth i os 0%Z in
        (x = 0%Z -> o = 1%Z) /\
        (x <> 0%Z -> (1 <= o)%Z /\ (P x ^+ Z.to_nat o) %% P pp = 1 /\
                     forall j : nat, Nat.le 1 j -> (Z.of_nat j < o)%Z -> (P x ^+ j) %% P pp <> 1).
Proof. exact C16_order_proof. Qed.
Print Assumptions C16_order.
Example C16_witness : gf_order (gf 4 19 [:: 0; 1; 8; 6; 2]%Z) = Ok [:: 1; 1; 5; 3; 15]%Z. Proof. vm_compute. reflexivity. Qed.

(* ---------------------------------------------------------------- C17 *)

Theorem C17_cosets :
forall (m : nat) (pp : Z) (a : list Z), field_of m pp -> in_field m a -> List.NoDup a ->
    exists css : list (list Z), gf_cosets (gf m pp a) = Ok (List.map (gf m pp) css) /\
      (* a partition of the elements into nonempty classes ... *)
      List.Forall (fun c => c <> [::]) css /\ Permutation.Permutation (List.concat css) a /\
      (* ... by: y is x^(2^k) in the field *)
      forall x y, List.In x a -> List.In y a ->
        ((exists c, List.In c css /\ List.In x c /\ List.In y c) <-> exists k : nat, P y = (P x ^+ (2 ^ k)) %% P pp).
Proof. exact C17_cosets_proof. Qed.
Print Assumptions C17_cosets.
Example C17_witness : field_of 4 19 /\ in_field 4 [:: 0; 1; 8; 15; 10; 12; 11; 2]%Z /\ List.NoDup [:: 0; 1; 8; 15; 10; 12; 11; 2]%Z /\
  gf_cosets (gf 4 19 [:: 0; 1; 8; 15; 10; 12; 11; 2]%Z) = Ok (List.map (gf 4 19) [:: [:: 0]; [:: 1]; [:: 8; 15; 10; 12]; [:: 11]; [:: 2]]%Z).
Proof. split; [split; [lia|reflexivity]|]. split; [split; [discriminate|repeat constructor; lia]|].
  split; [|vm_compute; reflexivity]. repeat (constructor; [cbn [List.In]; lia|]). constructor. Qed.

(* ---------------------------------------------------------------- C18 *)

Theorem C18_minimal_polynomials :
forall (m : nat) (pp : Z) (a : list Z), field_of m pp -> in_field m a ->
    exists ps : list Z, gf_minpolys (gf m pp a) = Ok ps /\ length ps = length a /\
      forall i : nat, Nat.lt i (length a) ->
        let x := List.nth i a 0%Z in let p := List.nth i ps 0%Z in
        (1 <= p)%Z /\ P pp %| (P p \Po P x) /\
        (forall q : Z, (1 <= q)%Z -> P pp %| (P q \Po P x) -> (Z.log2 p <= Z.log2 q)%Z).
Proof. exact C18_minimal_polynomials_proof. Qed.
Print Assumptions C18_minimal_polynomials.
Example C18_witness : gf_minpolys (gf 3 11 [:: 0; 1; 2; 3; 5]%Z) = Ok [:: 2; 3; 11; 13; 13]%Z /\ field_of 3 11 /\ in_field 3 [:: 0; 1; 2; 3; 5]%Z.
Proof. split; [vm_compute; reflexivity|]. split; [split; [lia|reflexivity]|]. split; [discriminate|repeat constructor; lia]. Qed.

(* ---------------------------------------------------------------- C19 *)

Theorem C19_generators_divide :
forall (m n : nat) (k : Z) (l : list Z), (1 <= m)%coq_nat -> (m <= 16)%coq_nat -> Z.of_nat n = (2 ^ Z.of_nat m - 1)%Z ->
    cyclic_code_genpoly n k = Ok l ->
    (forall g : Z, List.In g l -> (1 <= g)%Z /\ Z.log2 g = (Z.of_nat n - k)%Z /\ P g %| ('X^n - 1)) /\
    (* and they are all of them *)
    (forall g : Z, (k < Z.of_nat n)%Z -> (1 <= g)%Z -> Z.log2 g = (Z.of_nat n - k)%Z -> P g %| ('X^n - 1) -> List.In g l).
Proof. exact C19_generators_divide_proof. Qed.
Print Assumptions C19_generators_divide.
Example C19_witness : cyclic_code_genpoly 7 4 = Ok [:: 13; 11]%Z. Proof. vm_compute. reflexivity. Qed.

Theorem C19_generators_total :
forall (m n : nat) (k : Z), (1 <= m)%coq_nat -> (m <= 16)%coq_nat -> Z.of_nat n = (2 ^ Z.of_nat m - 1)%Z ->
    ((m <= 5)%coq_nat -> exists l, cyclic_code_genpoly n k = Ok l) /\
    (forall e, cyclic_code_genpoly n k = Err e -> e = TypeError).
Proof. exact C19_generators_total_proof. Qed.
Print Assumptions C19_generators_total.
Example C19_total_witness : exists l, cyclic_code_genpoly 15 5 = Ok l /\ List.length l = 3%N. Proof. eexists. split; [vm_compute; reflexivity|reflexivity]. Qed.

Theorem C19_even_rejected :
forall (n : nat) (k : Z), Nat.even n = true -> cyclic_code_genpoly n k = Err ValueError.
Proof. exact C19_even_rejected_proof. Qed.
Print Assumptions C19_even_rejected.
Example C19_even_witness : Nat.even 14 = true /\ cyclic_code_genpoly 14 4 = Err ValueError. Proof. split; reflexivity. Qed.

Theorem C19_proper_divisor_refuted :
exists l : list Z, cyclic_code_genpoly 5 1 = Ok l /\ List.In 19%Z l /\ ~ (P 19 %| ('X^5 - 1)).
Proof. exact C19_proper_divisor_refuted_proof. Qed.
Print Assumptions C19_proper_divisor_refuted.

(* ---------------------------------------------------------------- C20 *)

Theorem C20_poly_to_string :
forall x : Z, (0 <= x)%Z -> exists l : list Z, poly_to_string x = Ok l /\
    Sorted.StronglySorted Z.lt l /\ (forall i : Z, List.In i l <-> (0 <= i)%Z /\ Z.testbit x i = true).
Proof. exact C20_poly_to_string_proof. Qed.
Print Assumptions C20_poly_to_string.
Example C20_witness : poly_to_string 37 = Ok [:: 0; 2; 5]%Z. Proof. reflexivity. Qed.
