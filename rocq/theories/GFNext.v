(* The LFSR step of GF.tuple_to_power is multiplication by alpha. *)
From Verif Require Import Base UtilModel GFModel GFPoly.

Lemma gf_next_eq m pp cur : (1 <= m)%nat -> Z.log2 pp = Z.of_nat m -> (0 < pp)%Z -> (0 <= cur < 2 ^ Z.of_nat m)%Z ->
  gf_next m pp cur = Z.lxor (Z.shiftl cur 1) (if Z.testbit cur (Z.of_nat m - 1) then pp else 0%Z) /\
  (0 <= gf_next m pp cur < 2 ^ Z.of_nat m)%Z.
Proof.
  intros Hm Hlog Hpp Hcur. unfold gf_next. set (mz := Z.of_nat m) in *. set (t := Z.testbit cur (mz - 1)).
  assert (Hmz : (1 <= mz)%Z) by (unfold mz; lia).
  assert (E1 : Z.land cur (2 ^ (mz - 1)) = (if t then 2 ^ (mz - 1) else 0)%Z).
  { apply Z.bits_inj'. intros n Hn. rewrite Z.land_spec, Z.pow2_bits_eqb by lia. unfold t.
    destruct (Z.eqb_spec (mz - 1) n) as [->|Hne].
    - rewrite Bool.andb_true_r. destruct (Z.testbit cur n); [now rewrite Z.pow2_bits_true by lia|now rewrite Z.bits_0].
    - rewrite Bool.andb_false_r. destruct (Z.testbit cur (mz - 1)); [now rewrite Z.pow2_bits_false by lia|now rewrite Z.bits_0]. }
  assert (E2 : Z.land (- Z.shiftr (Z.land cur (2 ^ (mz - 1))) (mz - 1)) (Z.land pp (2 ^ mz - 1)) = Z.land (if t then pp else 0%Z) (2 ^ mz - 1)).
  { rewrite E1. destruct t.
    - rewrite Z.shiftr_div_pow2, Z.div_same by (try apply Z.pow_nonzero; lia). rewrite Z.land_m1_l. reflexivity.
    - rewrite Z.shiftr_0_l. reflexivity. }
  rewrite E2. set (q := if t then pp else 0%Z).
  assert (E3 : Z.lxor (Z.land (Z.shiftl cur 1) (2 ^ mz - 1)) (Z.land q (2 ^ mz - 1)) = (Z.lxor (Z.shiftl cur 1) q mod 2 ^ mz)%Z).
  { replace (2 ^ mz - 1)%Z with (Z.ones mz) by (rewrite Z.ones_equiv; lia). rewrite <- Z.land_ones by lia.
    apply Z.bits_inj'. intros n Hn. rewrite Z.lxor_spec, !Z.land_spec, Z.lxor_spec.
    destruct (Z.testbit (Z.ones mz) n), (Z.testbit (Z.shiftl cur 1) n), (Z.testbit q n); reflexivity. }
  assert (Hlt : (0 <= Z.lxor (Z.shiftl cur 1) q < 2 ^ mz)%Z).
  { assert (Hsh : Z.shiftl cur 1 = (2 * cur)%Z) by (rewrite Z.shiftl_mul_pow2 by lia; lia).
    assert (Hd : (2 ^ mz = 2 * 2 ^ (mz - 1))%Z) by (rewrite <- Z.pow_succ_r by lia; f_equal; lia).
    unfold q. destruct t eqn:Et; unfold t in Et.
    - assert (Hc : (2 ^ (mz - 1) <= cur)%Z).
      { destruct (Z.lt_ge_cases cur (2 ^ (mz - 1))) as [Hc|]; [|assumption].
        destruct (Z.eq_dec cur 0) as [->|]; [now rewrite Z.bits_0 in Et|].
        rewrite Z.bits_above_log2 in Et; [discriminate|lia|]. apply Z.log2_lt_pow2; lia. }
      split; [apply lxor_nonneg; lia|].
      assert (HL : Z.log2 (Z.shiftl cur 1) = mz). { apply Z.log2_unique; [lia|]. rewrite Hsh. rewrite Z.pow_succ_r by lia. lia. }
      pose proof (lxor_top_lt (Z.shiftl cur 1) pp ltac:(lia) Hpp ltac:(lia)) as Hx. rewrite HL in Hx. lia.
    - rewrite Z.lxor_0_r. rewrite Hsh. split; [lia|].
      destruct (Z.lt_ge_cases cur (2 ^ (mz - 1))) as [Hc|Hc]; [lia|].
      exfalso. assert (HL : Z.log2 cur = (mz - 1)%Z). { apply Z.log2_unique; [lia|]. replace (Z.succ (mz - 1)) with mz by lia. lia. }
      rewrite <- HL, Z.bit_log2 in Et by lia. discriminate. }
  rewrite E3, Z.mod_small by exact Hlt. split; [reflexivity|exact Hlt].
Qed.


Lemma Zgcd_nat a b : Z.gcd (Z.of_nat a) (Z.of_nat b) = Z.of_nat (Nat.gcd a b).
Proof.
  apply Z.gcd_unique; [lia| | |].
  - destruct (Nat.gcd_divide_l a b) as [q Hq]. exists (Z.of_nat q). lia.
  - destruct (Nat.gcd_divide_r a b) as [q Hq]. exists (Z.of_nat q). lia.
  - intros c [p Hp] [q Hq].
    assert (Hd : forall n z, Z.of_nat n = z * c -> Nat.divide (Z.abs_nat c) n).
    { intros n z Hz. exists (Z.abs_nat z). rewrite <- Zabs2Nat.inj_mul, <- Hz. symmetry. apply Zabs2Nat.id. }
    destruct (Nat.gcd_greatest a b (Z.abs_nat c) (Hd _ _ Hp) (Hd _ _ Hq)) as [r Hr].
    rewrite Hr. apply Z.divide_abs_l. exists (Z.of_nat r). rewrite Nat2Z.inj_mul, Zabs2Nat.id_abs. reflexivity.
Qed.
