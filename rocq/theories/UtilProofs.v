From Verif Require Import Base UtilModel.

(* ---------- the bit loop ---------- *)
Definition d2b_cell (n w pox : Z) (j : Z) : bool :=
  ((w - 1 - j <? pox) && Z.testbit n (w - 1 - j)) || ((2 * w - 1 - j <? pox) && Z.testbit n (2 * w - 1 - j)).

Lemma land_pow2 n p : 0 <= p -> (Z.land (2 ^ p) n =? 0) = negb (Z.testbit n p).
Proof.
  intros Hp. destruct (Z.testbit n p) eqn:E; simpl.
  - apply Z.eqb_neq. intros H. assert (Hb : Z.testbit (Z.land (2 ^ p) n) p = true).
    { rewrite Z.land_spec, Z.pow2_bits_true, E by lia. reflexivity. }
    rewrite H, Z.bits_0 in Hb. discriminate.
  - apply Z.eqb_eq. apply Z.bits_inj'. intros q Hq.
    rewrite Z.land_spec, Z.bits_0, Z.pow2_bits_eqb by lia.
    destruct (Z.eqb_spec p q); simpl; [subst; exact E|reflexivity].
Qed.

Lemma d2b_loop_spec fuel : forall n (w : nat) pox l,
  0 <= n -> 0 <= pox -> length l = w ->
  n < 2 ^ (2 * Z.of_nat w) -> pox <= Z.log2 n + 1 ->
  (Z.to_nat (Z.log2 n + 1 - pox) < fuel)%nat ->
  (forall j, (j < w)%nat -> nth j l 0 = Z.b2z (d2b_cell n (Z.of_nat w) pox (Z.of_nat j))) ->
  exists r, d2b_loop fuel n (Z.of_nat w) (2 ^ pox) pox l = Ok r /\ length r = w /\
    (forall j, (j < w)%nat -> nth j r 0 = Z.b2z (d2b_cell n (Z.of_nat w) (Z.log2 n + 1) (Z.of_nat j))).
Proof.
  induction fuel as [|fuel IH]; intros n w pox l Hn Hp Hl Hsz Hpl Hf Hinv; [lia|].
  cbn [d2b_loop]. destruct (Z.leb_spec (2 ^ pox) n) as [Hle|Hgt].
  - assert (Hpos : 0 < n) by (assert (0 < 2 ^ pox) by (apply Z.pow_pos_nonneg; lia); lia).
    assert (Hpox : pox <= Z.log2 n) by (apply Z.log2_le_pow2; lia).
    rewrite land_pow2 by lia.
    replace (Z.shiftl (2 ^ pox) 1) with (2 ^ (pox + 1))
      by (rewrite Z.shiftl_mul_pow2, Z.pow_add_r by lia; reflexivity).
    destruct (Z.testbit n pox) eqn:Hbit; cbn [negb bind].
    + assert (Hpw : pox < 2 * Z.of_nat w).
      { assert (Z.log2 n < 2 * Z.of_nat w) by (apply Z.log2_lt_pow2; lia). lia. }
      unfold py_set. rewrite Hl.
      set (k := if pox <? Z.of_nat w then Z.to_nat (Z.of_nat w - pox - 1)
                else Z.to_nat (2 * Z.of_nat w - pox - 1)).
      assert (Hidx : py_idx w (Z.of_nat w - pox - 1) = Some k).
      { unfold py_idx, k. destruct (Z.ltb_spec pox (Z.of_nat w)).
        - replace ((0 <=? Z.of_nat w - pox - 1) && (Z.of_nat w - pox - 1 <? Z.of_nat w)) with true by lia.
          reflexivity.
        - replace ((0 <=? Z.of_nat w - pox - 1) && (Z.of_nat w - pox - 1 <? Z.of_nat w)) with false by lia.
          replace ((- Z.of_nat w <=? Z.of_nat w - pox - 1) && (Z.of_nat w - pox - 1 <? 0)) with true by lia.
          f_equal. lia. }
      rewrite Hidx. cbn [bind].
      apply IH; try lia; [rewrite upd_length; exact Hl|].
      intros j Hj. rewrite nth_upd, Hl.
      assert (Hkw : (k < w)%nat) by (unfold k; destruct (Z.ltb_spec pox (Z.of_nat w)); lia).
      replace (k <? w)%nat with true by lia. rewrite andb_true_r.
      destruct (Nat.eqb_spec j k) as [->|Hjk].
      * unfold d2b_cell.
        assert (Hb : (Z.of_nat w - 1 - Z.of_nat k = pox \/ 2 * Z.of_nat w - 1 - Z.of_nat k = pox))
          by (unfold k; destruct (Z.ltb_spec pox (Z.of_nat w)); lia).
        destruct Hb as [-> | ->]; rewrite Hbit.
        -- replace (pox <? pox + 1) with true by lia. reflexivity.
        -- replace (pox <? pox + 1) with true by lia. rewrite orb_true_r. reflexivity.
      * rewrite (Hinv j Hj). unfold d2b_cell. f_equal.
        assert (H1 : Z.of_nat w - 1 - Z.of_nat j <> pox) by (unfold k in Hjk; destruct (Z.ltb_spec pox (Z.of_nat w)); lia).
        assert (H2 : 2 * Z.of_nat w - 1 - Z.of_nat j <> pox) by (unfold k in Hjk; destruct (Z.ltb_spec pox (Z.of_nat w)); lia).
        f_equal; f_equal; lia.
    + apply IH; try lia; try assumption.
      intros j Hj. rewrite (Hinv j Hj). unfold d2b_cell. f_equal.
      destruct (Z.eqb_spec (Z.of_nat w - 1 - Z.of_nat j) pox) as [E1|E1].
      * rewrite E1, Hbit, !andb_false_r. cbn [orb].
        f_equal. lia.
      * destruct (Z.eqb_spec (2 * Z.of_nat w - 1 - Z.of_nat j) pox) as [E2|E2].
        -- rewrite E2, Hbit, !andb_false_r. f_equal. f_equal. lia.
        -- f_equal; f_equal; lia.
  - destruct (Z.eq_dec n 0) as [->|Hn0].
    { exists l. split; [reflexivity|]. split; [exact Hl|]. intros j Hj. rewrite (Hinv j Hj).
      unfold d2b_cell. rewrite !Z.bits_0, !andb_false_r. reflexivity. }
    assert (Hpox : pox = Z.log2 n + 1).
    { assert (~ pox <= Z.log2 n); [|lia]. intros Hc. apply Z.log2_le_pow2 in Hc; lia. }
    exists l. rewrite Hpox in Hinv. auto.
Qed.

Lemma testbit_high n q : 0 <= n -> Z.log2 n < q -> Z.testbit n q = false.
Proof. intros. apply Z.bits_above_log2; lia. Qed.

Lemma decimal2bitarray_wide n w :
  0 <= n < 2 ^ (2 * Z.of_nat w) ->
  exists r, decimal2bitarray n w = Ok r /\ length r = w /\
    (forall j, (j < w)%nat -> nth j r 0 =
       Z.b2z (Z.testbit n (Z.of_nat w - 1 - Z.of_nat j) || Z.testbit n (2 * Z.of_nat w - 1 - Z.of_nat j))).
Proof.
  intros [Hn Hs]. unfold decimal2bitarray.
  assert (Hl2 : 0 <= Z.log2 n) by apply Z.log2_nonneg.
  change 1 with (2 ^ 0) at 1.
  destruct (d2b_loop_spec (Z.to_nat (Z.log2 n) + 2) n w 0 (repeat 0 w)) as (r & Hr & Hlen & Hc); try lia.
  - apply repeat_length.
  - intros j Hj. rewrite nth_repeat_same. unfold d2b_cell.
    replace (Z.of_nat w - 1 - Z.of_nat j <? 0) with false by lia.
    replace (2 * Z.of_nat w - 1 - Z.of_nat j <? 0) with false by lia. reflexivity.
  - exists r. split; [exact Hr|]. split; [exact Hlen|].
    intros j Hj. rewrite (Hc j Hj). unfold d2b_cell. f_equal.
    assert (Hx : forall q, (q <? Z.log2 n + 1) && Z.testbit n q = Z.testbit n q).
    { intros q. destruct (Z.ltb_spec q (Z.log2 n + 1)); [reflexivity|].
      rewrite testbit_high by lia. reflexivity. }
    rewrite !Hx. reflexivity.
Qed.

(* bits of n, most significant first *)
Definition bits_msb (w : nat) (n : Z) : list Z :=
  map (fun i => Z.b2z (Z.testbit n (Z.of_nat w - 1 - Z.of_nat i))) (seq 0 w).

Lemma bits_msb_length w n : length (bits_msb w n) = w.
Proof. apply map_seq_length. Qed.

Lemma bits_msb_nth w n i : (i < w)%nat ->
  nth i (bits_msb w n) 0 = Z.b2z (Z.testbit n (Z.of_nat w - 1 - Z.of_nat i)).
Proof. intros H. unfold bits_msb. rewrite nth_map_seq by exact H. reflexivity. Qed.

Lemma bits_msb_bits w n : bits (bits_msb w n).
Proof. apply Forall_forall. intros x Hx. apply in_map_iff in Hx. destruct Hx as (i & <- & _). apply is_bit_b2z. Qed.

Lemma decimal2bitarray_ok n w : 0 <= n < 2 ^ Z.of_nat w -> decimal2bitarray n w = Ok (bits_msb w n).
Proof.
  intros [Hn Hw].
  assert (Hw2 : 2 ^ Z.of_nat w <= 2 ^ (2 * Z.of_nat w)) by (apply Z.pow_le_mono_r; lia).
  destruct (decimal2bitarray_wide n w) as (r & Hr & Hl & Hc); [lia|].
  rewrite Hr. f_equal. apply nth_ext_Z; [rewrite bits_msb_length; exact Hl|].
  intros i Hi. rewrite Hl in Hi. rewrite (Hc i Hi), bits_msb_nth by exact Hi. f_equal.
  assert (Hf : Z.testbit n (2 * Z.of_nat w - 1 - Z.of_nat i) = false).
  { destruct (Z.eq_dec n 0) as [->|]; [apply Z.bits_0|].
    apply Z.bits_above_log2; [lia|]. assert (Z.log2 n < Z.of_nat w) by (apply Z.log2_lt_pow2; lia). lia. }
  rewrite Hf, orb_false_r. reflexivity.
Qed.

(* too wide: IndexError *)
Lemma d2b_loop_err fuel : forall n (w : nat) pox l,
  0 < n -> 0 <= pox -> length l = w -> 2 * Z.of_nat w <= Z.log2 n -> pox <= Z.log2 n ->
  (Z.to_nat (Z.log2 n - pox) < fuel)%nat ->
  d2b_loop fuel n (Z.of_nat w) (2 ^ pox) pox l = Err IndexError.
Proof.
  induction fuel as [|fuel IH]; intros n w pox l Hn Hp Hl Hsz Hpl Hf; [lia|].
  cbn [d2b_loop].
  assert (Hle : 2 ^ pox <= n) by (apply Z.log2_le_pow2; lia).
  replace (2 ^ pox <=? n) with true by lia.
  rewrite land_pow2 by lia.
  replace (Z.shiftl (2 ^ pox) 1) with (2 ^ (pox + 1))
    by (rewrite Z.shiftl_mul_pow2, Z.pow_add_r by lia; reflexivity).
  destruct (Z.eqb_spec pox (Z.log2 n)) as [E|E].
  - assert (Hb : Z.testbit n pox = true) by (rewrite E; apply Z.bit_log2; lia).
    rewrite Hb. cbn [negb]. unfold py_set. rewrite Hl.
    replace (py_idx w (Z.of_nat w - pox - 1)) with (@None nat); [reflexivity|].
    unfold py_idx.
    replace ((0 <=? Z.of_nat w - pox - 1) && (Z.of_nat w - pox - 1 <? Z.of_nat w)) with false by lia.
    replace ((- Z.of_nat w <=? Z.of_nat w - pox - 1) && (Z.of_nat w - pox - 1 <? 0)) with false by lia.
    reflexivity.
  - destruct (negb (Z.testbit n pox)); cbn [bind].
    + apply IH; lia || assumption.
    + unfold py_set. destruct (py_idx (length l) (Z.of_nat w - pox - 1)); cbn [bind]; [|reflexivity].
      apply IH; try lia. rewrite upd_length. exact Hl.
Qed.

Lemma decimal2bitarray_err n w : 2 ^ (2 * Z.of_nat w) <= n -> decimal2bitarray n w = Err IndexError.
Proof.
  intros H. assert (0 < 2 ^ (2 * Z.of_nat w)) by (apply Z.pow_pos_nonneg; lia).
  assert (2 * Z.of_nat w <= Z.log2 n) by (apply Z.log2_le_pow2; lia).
  unfold decimal2bitarray. change 1 with (2 ^ 0) at 1.
  apply d2b_loop_err; try lia. apply repeat_length.
Qed.

(* negative numbers: all zero *)
Lemma decimal2bitarray_neg n w : n <= 0 -> decimal2bitarray n w = Ok (repeat 0 w).
Proof.
  intros H. unfold decimal2bitarray. rewrite Z.log2_nonpos by exact H.
  cbn [Z.to_nat Nat.add d2b_loop]. replace (1 <=? n) with false by lia. reflexivity.
Qed.

(* ---------- bitarray2dec ---------- *)
Fixpoint horner (b : list Z) (acc : Z) : Z :=
  match b with [] => acc | x :: b' => horner b' (2 * acc + x) end.

Lemma b2d_aux (b : list Z) : forall (p : list Z) acc,
  fold_left (fun number i => number + nth i (p ++ b) 0 * 2 ^ (Z.of_nat (length (p ++ b)) - 1 - Z.of_nat i))
            (seq (length p) (length b)) (acc * 2 ^ Z.of_nat (length b)) = horner b acc.
Proof.
  induction b as [|x b IH]; intros p acc.
  - simpl. lia.
  - cbn [length seq fold_left horner].
    replace (p ++ x :: b) with ((p ++ [x]) ++ b) by (rewrite <- app_assoc; reflexivity).
    rewrite <- (IH (p ++ [x]) (2 * acc + x)).
    rewrite (app_length p [x]). cbn [length]. rewrite Nat.add_1_r.
    f_equal.
    rewrite app_nth1 by (rewrite app_length; cbn [length]; lia).
    rewrite app_nth2 by lia. rewrite Nat.sub_diag. cbn [nth].
    rewrite !app_length. cbn [length].
    replace (Z.of_nat (length p + 1 + length b) - 1 - Z.of_nat (length p)) with (Z.of_nat (length b)) by lia.
    rewrite Nat2Z.inj_succ, Z.pow_succ_r by lia. lia.
Qed.

Lemma bitarray2dec_horner b : bitarray2dec b = horner b 0.
Proof. unfold bitarray2dec. rewrite <- (b2d_aux b [] 0). cbn [app length]. f_equal. Qed.

Lemma horner_app b b' acc : horner (b ++ b') acc = horner b' (horner b acc).
Proof. revert acc; induction b as [|x b IH]; intros acc; [reflexivity|]. cbn [app horner]. apply IH. Qed.

Lemma horner_acc b acc : horner b acc = acc * 2 ^ Z.of_nat (length b) + horner b 0.
Proof.
  revert acc; induction b as [|x b IH]; intros acc; [simpl; lia|].
  cbn [horner length]. rewrite (IH (2 * acc + x)), (IH (2 * 0 + x)), Nat2Z.inj_succ, Z.pow_succ_r by lia. lia.
Qed.

Lemma horner_range b : bits b -> 0 <= horner b 0 < 2 ^ Z.of_nat (length b).
Proof.
  induction b as [|x b IH]; intros H; [simpl; lia|].
  inversion H; subst. cbn [horner length]. rewrite horner_acc, Nat2Z.inj_succ, Z.pow_succ_r by lia.
  specialize (IH H3). destruct H2; subst; lia.
Qed.

Lemma bitarray2dec_range b : bits b -> 0 <= bitarray2dec b < 2 ^ Z.of_nat (length b).
Proof. rewrite bitarray2dec_horner. apply horner_range. Qed.

Lemma bitarray2dec_app b b' :
  bitarray2dec (b ++ b') = bitarray2dec b * 2 ^ Z.of_nat (length b') + bitarray2dec b'.
Proof. rewrite !bitarray2dec_horner, horner_app. apply horner_acc. Qed.

Lemma bitarray2dec_cons x b : bitarray2dec (x :: b) = x * 2 ^ Z.of_nat (length b) + bitarray2dec b.
Proof. rewrite !bitarray2dec_horner. cbn [horner]. rewrite horner_acc. f_equal. Qed.

Lemma bits_msb_S w n : bits_msb (S w) n = Z.b2z (Z.testbit n (Z.of_nat w)) :: bits_msb w n.
Proof.
  apply nth_ext_Z; [cbn [length]; rewrite !bits_msb_length; reflexivity|].
  intros i Hi. rewrite bits_msb_length in Hi. rewrite bits_msb_nth by exact Hi.
  destruct i as [|i]; cbn [nth].
  - f_equal. f_equal. lia.
  - rewrite bits_msb_nth by lia. f_equal. f_equal. lia.
Qed.

Lemma b2d_bits_msb w n : bitarray2dec (bits_msb w n) = n mod 2 ^ Z.of_nat w.
Proof.
  induction w as [|w IH].
  - simpl. rewrite Z.mod_1_r. reflexivity.
  - rewrite bits_msb_S, bitarray2dec_cons, IH, bits_msb_length.
    rewrite Nat2Z.inj_succ, Z.pow_succ_r by lia.
    rewrite Z.testbit_spec' by lia.
    assert (0 < 2 ^ Z.of_nat w) by (apply Z.pow_pos_nonneg; lia).
    rewrite (Z.mul_comm 2 (2 ^ Z.of_nat w)), Z.rem_mul_r by lia. lia.
Qed.

Lemma bits_msb_b2d b : bits b -> bits_msb (length b) (bitarray2dec b) = b.
Proof.
  induction b as [|x b IH]; intros H; [reflexivity|].
  inversion H; subst. cbn [length]. rewrite bits_msb_S.
  assert (Hr := bitarray2dec_range b H3).
  assert (Hx : Z.testbit (bitarray2dec (x :: b)) (Z.of_nat (length b)) = (x =? 1)).
  { apply Z.b2z_inj. rewrite Z.testbit_spec' by lia. rewrite bitarray2dec_cons.
    rewrite Z.div_add_l by lia. rewrite (Z.div_small (bitarray2dec b)) by lia.
    destruct H2; subst; reflexivity. }
  rewrite Hx. f_equal; [destruct H2; subst; reflexivity|].
  transitivity (bits_msb (length b) (bitarray2dec b)); [|exact (IH H3)].
  apply nth_ext_Z; [rewrite !bits_msb_length; reflexivity|].
  intros i Hi. rewrite bits_msb_length in Hi. rewrite !bits_msb_nth by exact Hi. f_equal.
  rewrite bitarray2dec_cons.
  set (q := Z.of_nat (length b) - 1 - Z.of_nat i).
  rewrite <- (Z.mod_pow2_bits_low (x * _ + _) (Z.of_nat (length b)) q) by lia.
  replace ((x * 2 ^ Z.of_nat (length b) + bitarray2dec b) mod 2 ^ Z.of_nat (length b))
    with (bitarray2dec b mod 2 ^ Z.of_nat (length b))
    by (rewrite (Z.add_comm (x * _)); symmetry; apply Z_mod_plus_full).
  rewrite Z.mod_pow2_bits_low by lia. reflexivity.
Qed.

(* ---------- hamming ---------- *)
Lemma combine_length_eq {A B} (a : list A) (b : list B) : length a = length b -> length (combine a b) = length a.
Proof. intros H. rewrite combine_length. lia. Qed.

Fixpoint count_diff (a b : list Z) : Z :=
  match a, b with
  | x :: a', y :: b' => (if x =? y then 0 else 1) + count_diff a' b'
  | _, _ => 0
  end.

Lemma hamming_dist_count a b : bits a -> bits b -> length a = length b ->
  hamming_dist a b = Ok (count_diff a b).
Proof.
  intros Ha Hb Hl. unfold hamming_dist, np_broadcast2. rewrite (proj2 (Nat.eqb_eq _ _) Hl). cbn [bind]. f_equal.
  revert b Hb Hl; induction a as [|x a IH]; intros [|y b] Hb Hl; cbn in Hl; try lia; [reflexivity|].
  inversion Ha; inversion Hb; subst. cbn [combine map count_diff fst snd]. rewrite Zsum_cons, (IH H2 b) by (assumption || lia).
  f_equal. destruct H1, H5; subst; reflexivity.
Qed.

Lemma count_diff_refl a : count_diff a a = 0.
Proof. induction a; cbn [count_diff]; [reflexivity|]. rewrite Z.eqb_refl. lia. Qed.

Lemma count_diff_nonneg a : forall b, 0 <= count_diff a b <= Z.of_nat (length a).
Proof. induction a as [|x a IH]; intros [|y b]; cbn [count_diff length]; try lia. specialize (IH b). destruct (x =? y); lia. Qed.

Lemma count_diff_0 a : forall b, length a = length b -> count_diff a b = 0 -> a = b.
Proof.
  induction a as [|x a IH]; intros [|y b] Hl H; cbn in Hl; try lia; [reflexivity|].
  cbn [count_diff] in H. pose proof (count_diff_nonneg a b). destruct (Z.eqb_spec x y); [|lia]. subst. f_equal. apply IH; lia.
Qed.

Lemma count_diff_sym a : forall b, count_diff a b = count_diff b a.
Proof. induction a as [|x a IH]; intros [|y b]; cbn [count_diff]; try reflexivity. rewrite IH, Z.eqb_sym. reflexivity. Qed.

Lemma count_diff_triangle a : forall b c, length a = length b -> length b = length c ->
  count_diff a c <= count_diff a b + count_diff b c.
Proof.
  induction a as [|x a IH]; intros [|y b] [|z c] H1 H2; cbn in H1, H2; try lia; cbn [count_diff]; [lia|].
  assert (Hi : count_diff a c <= count_diff a b + count_diff b c) by (apply IH; lia).
  destruct (Z.eqb_spec x z), (Z.eqb_spec x y), (Z.eqb_spec y z); lia.
Qed.

(* ---------- upsample ---------- *)
Lemma strided_write_spec {A} (vals : list A) : forall (y : list (option A)) start step base j,
  (1 <= step)%nat ->
  (start + (base + length vals) * step <= length y + step - 1)%nat \/ vals = [] ->
  (start < step)%nat ->
  nth j (fold_left (fun y qv => upd y (start + fst qv * step) (Some (snd qv)))
                   (combine (seq base (length vals)) vals) y) None =
  if (j mod step =? start)%nat && (base <=? j / step)%nat && (j / step <? base + length vals)%nat
  then nth_error vals (j / step - base) else nth j y None.
Proof.
  induction vals as [|v vals IH]; intros y start step base j Hs Hfit Hst.
  - cbn [length seq combine fold_left]. rewrite Nat.add_0_r.
    replace ((base <=? j / step)%nat && (j / step <? base)%nat) with false
      by (destruct (Nat.leb_spec base (j/step)), (Nat.ltb_spec (j/step) base); simpl; lia || reflexivity).
    rewrite <- andb_assoc.
    replace ((base <=? j / step)%nat && (j / step <? base)%nat) with false
      by (destruct (Nat.leb_spec base (j/step)), (Nat.ltb_spec (j/step) base); simpl; lia || reflexivity).
    rewrite andb_false_r. reflexivity.
  - cbn [length seq combine fold_left fst snd].
    destruct Hfit as [Hfit|Hc]; [|discriminate]. cbn [length] in Hfit.
    assert (Hb : (start + base * step < length y)%nat) by nia.
    rewrite IH; [|exact Hs| |exact Hst].
    + rewrite nth_upd. replace (start + base * step <? length y)%nat with true by lia. rewrite andb_true_r.
      assert (Hj : j = (step * (j / step) + j mod step)%nat) by (apply Nat.div_mod; lia).
      assert (Hm : (j mod step < step)%nat) by (apply Nat.mod_upper_bound; lia).
      set (q := (j / step)%nat) in *. set (r := (j mod step)%nat) in *.
      destruct (Nat.eqb_spec r start) as [Er|Er]; cbn [andb].
      * destruct (Nat.leb_spec (S base) q), (Nat.ltb_spec q (S base + length vals)); cbn [andb];
          destruct (Nat.leb_spec base q), (Nat.ltb_spec q (base + S (length vals))); cbn [andb]; try lia.
        -- replace (q - base)%nat with (S (q - S base)) by lia. reflexivity.
        -- replace (j =? start + base * step)%nat with false; [reflexivity|].
           symmetry. apply Nat.eqb_neq. intros E. assert (q = base) by nia. lia.
        -- assert (q = base) by lia. subst q. rewrite H3 in *.
           replace (j =? start + base * step)%nat with true by (symmetry; apply Nat.eqb_eq; nia).
           rewrite Nat.sub_diag. reflexivity.
        -- replace (j =? start + base * step)%nat with false; [reflexivity|].
           symmetry. apply Nat.eqb_neq. intros E. assert (q = base) by nia. lia.
      * replace (j =? start + base * step)%nat with false; [reflexivity|].
        symmetry. apply Nat.eqb_neq. intros E. apply Er.
        unfold r. rewrite E, Nat.mod_add by lia. apply Nat.mod_small. exact Hst.
    + rewrite upd_length. destruct vals; [right; reflexivity|left]. cbn [length] in *. lia.
Qed.

Lemma strided_write_length {A} (vals : list A) : forall (y : list (option A)) start step base,
  length (fold_left (fun y qv => upd y (start + fst qv * step) (Some (snd qv)))
                    (combine (seq base (length vals)) vals) y) = length y.
Proof.
  induction vals as [|v vals IH]; intros; cbn [length seq combine fold_left]; [reflexivity|].
  rewrite IH. apply upd_length.
Qed.

Lemma upsample_fold {A} (zero : A) L n : (1 <= n)%nat -> forall cnt s (y : list (option A)) j,
  (s + cnt <= n)%nat -> length y = (L * n)%nat -> (j < L * n)%nat ->
  nth j (fold_left (fun y i => strided_write y i n (repeat zero L)) (seq s cnt) y) None =
  if (s <=? j mod n)%nat && (j mod n <? s + cnt)%nat then Some zero else nth j y None.
Proof.
  intros Hn cnt. induction cnt as [|cnt IH]; intros s y j Hs Hy Hj; cbn [seq fold_left].
  - replace ((s <=? j mod n)%nat && (j mod n <? s + 0)%nat) with false; [reflexivity|].
    destruct (Nat.leb_spec s (j mod n)), (Nat.ltb_spec (j mod n) (s + 0)); simpl; lia || reflexivity.
  - rewrite IH; [|lia| |exact Hj].
    + unfold strided_write. rewrite strided_write_spec; [|lia| |lia].
      * rewrite repeat_length.
        assert (Hq : (j / n < L)%nat) by (apply Nat.div_lt_upper_bound; lia).
        replace (j / n <? 0 + L)%nat with true by lia.
        rewrite nth_error_repeat by lia.
        change (0 <=? j / n)%nat with true. rewrite !andb_true_r.
        destruct (Nat.leb_spec (S s) (j mod n)), (Nat.ltb_spec (j mod n) (S s + cnt)); cbn [andb];
        destruct (Nat.eqb_spec (j mod n) s);
        destruct (Nat.leb_spec s (j mod n)), (Nat.ltb_spec (j mod n) (s + S cnt)); cbn [andb]; try lia; reflexivity.
      * rewrite repeat_length. destruct L; [right; reflexivity|left]. rewrite Hy. nia.
    + unfold strided_write. rewrite strided_write_length. exact Hy.
Qed.

Lemma upsample_length {A} (zero : A) x n y : upsample zero x n = Ok y -> length y = (length x * n)%nat.
Proof.
  unfold upsample. destruct (n =? 0)%nat; [discriminate|]. intros H. injection H as <-.
  assert (Hg : forall l (y : list (option A)), length (fold_left (fun y i => strided_write y i n (repeat zero (length x))) l y) = length y).
  { induction l as [|i l IH]; intros y; [reflexivity|]. cbn [fold_left]. rewrite IH. unfold strided_write. apply strided_write_length. }
  rewrite Hg. unfold strided_write. rewrite strided_write_length. apply repeat_length.
Qed.

Lemma upsample_nth {A} (zero d : A) x n y j :
  (1 <= n)%nat -> upsample zero x n = Ok y -> (j < length x * n)%nat ->
  nth j y None = Some (if (j mod n =? 0)%nat then nth (j / n) x d else zero).
Proof.
  intros Hn H Hj. unfold upsample in H. replace (n =? 0)%nat with false in H by lia. injection H as <-.
  rewrite upsample_fold; [|exact Hn|lia| |exact Hj].
  - assert (Hm : (j mod n < n)%nat) by (apply Nat.mod_upper_bound; lia).
    replace (j mod n <? 1 + (n - 1))%nat with true by lia. rewrite andb_true_r.
    destruct (Nat.eqb_spec (j mod n) 0) as [E|E].
    + rewrite E. cbn [Nat.leb]. unfold strided_write. rewrite strided_write_spec; [|lia| |lia].
      * rewrite E. assert (Hq : (j / n < length x)%nat) by (apply Nat.div_lt_upper_bound; lia).
        replace (j / n <? 0 + length x)%nat with true by lia. cbn [Nat.eqb Nat.leb andb].
        rewrite Nat.sub_0_r. apply nth_error_nth'. exact Hq.
      * rewrite repeat_length. destruct x; [right; reflexivity|left]. cbn [length]. nia.
    + replace (1 <=? j mod n)%nat with true by lia. reflexivity.
  - unfold strided_write. rewrite strided_write_length. apply repeat_length.
Qed.

(* ---------- packaged statements used by P_Util ---------- *)
Lemma dec2bitarray_full n (w : nat) : 0 <= n < 2 ^ Z.of_nat w ->
  exists b, dec2bitarray n w = Ok b /\ length b = w /\ bits b /\
            (forall i, (i < w)%nat -> nth i b 0 = (n / 2 ^ (Z.of_nat w - 1 - Z.of_nat i)) mod 2) /\
            bitarray2dec b = n.
Proof.
  intros H. exists (bits_msb w n). unfold dec2bitarray.
  split; [apply decimal2bitarray_ok, H|]. split; [apply bits_msb_length|]. split; [apply bits_msb_bits|].
  split; [|rewrite b2d_bits_msb; apply Z.mod_small, H].
  intros i Hi. rewrite bits_msb_nth by exact Hi. apply Z.testbit_spec'. lia.
Qed.

Lemma bits_roundtrip b : bits b ->
  dec2bitarray (bitarray2dec b) (length b) = Ok b /\ 0 <= bitarray2dec b < 2 ^ Z.of_nat (length b).
Proof.
  intros H. pose proof (bitarray2dec_range b H) as R. split; [|exact R].
  unfold dec2bitarray. rewrite decimal2bitarray_ok by exact R. f_equal. apply bits_msb_b2d, H.
Qed.

Lemma concat_nth_uniform {A} (d : A) w : forall (l : list (list A)) q r,
  (forall x, In x l -> length x = w) -> (r < w)%nat ->
  nth (q * w + r) (concat l) d = nth r (nth q l []) d.
Proof.
  induction l as [|x l IH]; intros q r Hl Hr.
  - cbn [concat]. destruct q; cbn; destruct r; try reflexivity; destruct (_ + _)%nat; reflexivity.
  - assert (Hx : length x = w) by (apply Hl; left; reflexivity). cbn [concat]. destruct q as [|q].
    + cbn [Nat.mul Nat.add nth]. apply app_nth1. lia.
    + rewrite app_nth2 by (cbn [Nat.mul]; lia). cbn [nth].
      replace (S q * w + r - length x)%nat with (q * w + r)%nat by (cbn [Nat.mul]; lia).
      apply IH; [|exact Hr]. intros y Hy. apply Hl. right; exact Hy.
Qed.

Lemma concat_length_uniform {A} w : forall (l : list (list A)),
  (forall x, In x l -> length x = w) -> length (concat l) = (w * length l)%nat.
Proof.
  induction l as [|x l IH]; intros Hl; cbn [concat length]; [lia|].
  rewrite app_length, IH by (intros y Hy; apply Hl; right; exact Hy).
  rewrite (Hl x) by (left; reflexivity). lia.
Qed.

Lemma dec2bitarray_arr_full (ns : list Z) (w : nat) :
  (forall n, In n ns -> 0 <= n < 2 ^ Z.of_nat w) ->
  exists b, dec2bitarray_arr ns w = Ok b /\ length b = (w * length ns)%nat /\
    (forall q r n, nth_error ns q = Some n -> (r < w)%nat ->
        nth (q * w + r) b 0 = (n / 2 ^ (Z.of_nat w - 1 - Z.of_nat r)) mod 2).
Proof.
  intros H. exists (concat (map (bits_msb w) ns)).
  assert (Hu : forall x, In x (map (bits_msb w) ns) -> length x = w).
  { intros x Hx. apply in_map_iff in Hx. destruct Hx as (n & <- & _). apply bits_msb_length. }
  unfold dec2bitarray_arr. rewrite (mapM_Ok _ (bits_msb w)) by (intros n Hn; apply decimal2bitarray_ok, H, Hn).
  split; [reflexivity|]. split; [rewrite (concat_length_uniform w _ Hu), map_length; reflexivity|].
  intros q r n Hq Hr. rewrite (concat_nth_uniform 0 w) by assumption.
  assert (Hql : (q < length ns)%nat) by (apply nth_error_Some; rewrite Hq; discriminate).
  rewrite (nth_map_lt (bits_msb w) ns q 0) by exact Hql. rewrite (nth_error_nth ns q 0 Hq).
  rewrite bits_msb_nth by exact Hr. apply Z.testbit_spec'. lia.
Qed.

Lemma testbit_b2d_bits (f : Z -> bool) (w : nat) (b : list Z) q :
  length b = w -> (forall j, (j < w)%nat -> nth j b 0 = Z.b2z (f (Z.of_nat w - 1 - Z.of_nat j))) ->
  0 <= q < Z.of_nat w -> Z.testbit (bitarray2dec b) q = f q.
Proof.
  intros Hl Hb Hq.
  assert (Hbits : bits b).
  { apply bits_of_nth. intros i Hi. rewrite Hb by lia. apply is_bit_b2z. }
  pose proof (bits_msb_b2d b Hbits) as E. rewrite Hl in E.
  pose (j := Z.to_nat (Z.of_nat w - 1 - q)).
  assert (Hj : (j < w)%nat) by (unfold j; lia).
  pose proof (bits_msb_nth w (bitarray2dec b) j Hj) as E1. rewrite E, (Hb j Hj) in E1.
  apply Z.b2z_inj in E1. replace (Z.of_nat w - 1 - Z.of_nat j) with q in E1 by (unfold j; lia). auto.
Qed.

Lemma dec2bitarray_too_wide n (w : nat) : 2 ^ Z.of_nat w <= n ->
  (n < 2 ^ (2 * Z.of_nat w) ->
     exists b, dec2bitarray n w = Ok b /\ length b = w /\
               bitarray2dec b = Z.lor (n mod 2 ^ Z.of_nat w) (n / 2 ^ Z.of_nat w) /\ bitarray2dec b <> n) /\
  (2 ^ (2 * Z.of_nat w) <= n -> dec2bitarray n w = Err IndexError).
Proof.
  intros Hn. assert (Hp : 0 < 2 ^ Z.of_nat w) by (apply Z.pow_pos_nonneg; lia).
  split; [|apply decimal2bitarray_err].
  intros Hlt. destruct (decimal2bitarray_wide n w) as (r & Hr & Hl & Hc); [lia|].
  exists r. split; [exact Hr|]. split; [exact Hl|].
  assert (Hbits : bits r) by (apply bits_of_nth; intros i Hi; rewrite Hc by lia; apply is_bit_b2z).
  pose proof (bitarray2dec_range r Hbits) as R. rewrite Hl in R. split; [|lia].
  apply Z.bits_inj'. intros q Hq. rewrite Z.lor_spec.
  assert (Hdiv : Z.testbit (n / 2 ^ Z.of_nat w) q = Z.testbit n (q + Z.of_nat w)).
  { rewrite <- Z.shiftr_div_pow2 by lia. apply Z.shiftr_spec, Hq. }
  rewrite Hdiv. destruct (Z.ltb_spec q (Z.of_nat w)) as [Hqw|Hqw].
  - rewrite Z.mod_pow2_bits_low by lia.
    apply (testbit_b2d_bits (fun q => Z.testbit n q || Z.testbit n (q + Z.of_nat w)) w r q Hl); [|lia].
    intros j Hj. rewrite (Hc j Hj). f_equal. f_equal. f_equal. lia.
  - rewrite Z.mod_pow2_bits_high by lia. cbn [orb].
    assert (Hh : forall x m, 0 <= x < 2 ^ m -> m <= q \/ m <= q + Z.of_nat w -> 0 <= m -> True) by auto.
    assert (E1 : Z.testbit (bitarray2dec r) q = false).
    { destruct (Z.eq_dec (bitarray2dec r) 0) as [->|]; [apply Z.bits_0|].
      apply Z.bits_above_log2; [lia|]. assert (Z.log2 (bitarray2dec r) < Z.of_nat w) by (apply Z.log2_lt_pow2; lia). lia. }
    assert (E2 : Z.testbit n (q + Z.of_nat w) = false).
    { apply Z.bits_above_log2; [lia|]. assert (Z.log2 n < 2 * Z.of_nat w) by (apply Z.log2_lt_pow2; lia). lia. }
    rewrite E1, E2. reflexivity.
Qed.

Lemma dec2bitarray_negative n (w : nat) : n < 0 -> dec2bitarray n w = Ok (repeat 0 w).
Proof. intros H. apply decimal2bitarray_neg. lia. Qed.

Lemma count_diff_filter a : forall b s, length a = length b ->
  count_diff a b = Z.of_nat (length (filter (fun i => negb (nth (i - s) a 0 =? nth (i - s) b 0)) (seq s (length a)))).
Proof.
  induction a as [|x a IH]; intros [|y b] s Hl; cbn in Hl; try lia; [reflexivity|].
  cbn [count_diff length seq filter]. rewrite Nat.sub_diag.
  change (nth 0 (x :: a) 0) with x. change (nth 0 (y :: b) 0) with y.
  rewrite (IH b (S s)) by lia.
  assert (E : filter (fun i => negb (nth (i - s) (x :: a) 0 =? nth (i - s) (y :: b) 0)) (seq (S s) (length a))
            = filter (fun i => negb (nth (i - S s) a 0 =? nth (i - S s) b 0)) (seq (S s) (length a))).
  { apply filter_ext_in. intros i Hi. apply in_seq in Hi. replace (i - s)%nat with (S (i - S s)) by lia. reflexivity. }
  rewrite E. destruct (x =? y); cbn [negb]; [lia|]. cbn [length]. lia.
Qed.

Lemma hamming_counts a b : bits a -> bits b -> length a = length b ->
  hamming_dist a b = Ok (Z.of_nat (length (filter (fun i => negb (nth i a 0 =? nth i b 0)) (seq 0 (length a))))).
Proof.
  intros Ha Hb Hl. rewrite hamming_dist_count by assumption. f_equal. rewrite (count_diff_filter a b 0 Hl).
  f_equal. f_equal. apply filter_ext. intros i. rewrite Nat.sub_0_r. reflexivity.
Qed.

Lemma hamming_metric a b c : bits a -> bits b -> bits c ->
  length a = length b -> length b = length c ->
  exists dab dba dbc dac,
    hamming_dist a b = Ok dab /\ hamming_dist b a = Ok dba /\ hamming_dist b c = Ok dbc /\ hamming_dist a c = Ok dac /\
    0 <= dab <= Z.of_nat (length a) /\ (dab = 0 <-> a = b) /\ dab = dba /\ dac <= dab + dbc.
Proof.
  intros Ha Hb Hc H1 H2. exists (count_diff a b), (count_diff b a), (count_diff b c), (count_diff a c).
  repeat split; try (apply hamming_dist_count; assumption || lia).
  - apply count_diff_nonneg.
  - apply count_diff_nonneg.
  - apply count_diff_0, H1.
  - intros ->. apply count_diff_refl.
  - apply count_diff_sym.
  - apply count_diff_triangle; assumption.
Qed.

Lemma hamming_shape (a b : list Z) : length a <> length b ->
  (hamming_dist a b = Err ValueError <-> length a <> 1%nat /\ length b <> 1%nat).
Proof.
  intros H. unfold hamming_dist, np_broadcast2. rewrite (proj2 (Nat.eqb_neq _ _) H).
  destruct a as [|x [|x' a]], b as [|y [|y' b]]; cbn in *; split; intros E; try discriminate; try lia; try (split; lia);
    try reflexivity; destruct E; lia.
Qed.

Lemma upsample_full {A} (zero : A) (x : list A) (n : nat) :
  (n = 0%nat -> upsample zero x n = Err ValueError) /\
  ((1 <= n)%nat -> exists y, upsample zero x n = Ok y /\ length y = (length x * n)%nat /\
     (forall i a, nth_error x i = Some a -> nth_error y (n * i) = Some (Some a)) /\
     (forall j, (j < length x * n)%nat -> (j mod n <> 0)%nat -> nth_error y j = Some (Some zero))).
Proof.
  split; [intros ->; reflexivity|]. intros Hn.
  destruct (upsample zero x n) as [y|e] eqn:E;
    [|unfold upsample in E; replace (n =? 0)%nat with false in E by lia; discriminate].
  exists y. split; [reflexivity|]. pose proof (upsample_length zero x n y E) as Hl. split; [exact Hl|].
  split.
  - intros i a Hi. assert (Hil : (i < length x)%nat) by (apply nth_error_Some; rewrite Hi; discriminate).
    assert (Hj : (n * i < length x * n)%nat) by nia.
    rewrite (nth_error_nth' y None) by lia. rewrite (upsample_nth zero zero x n y _ Hn E Hj).
    rewrite (Nat.mul_comm n i), Nat.mod_mul, Nat.div_mul by lia. cbn [Nat.eqb]. rewrite (nth_error_nth x i zero Hi). reflexivity.
  - intros j Hj Hm. rewrite (nth_error_nth' y None) by lia. rewrite (upsample_nth zero zero x n y _ Hn E Hj).
    apply Nat.eqb_neq in Hm. rewrite Hm. reflexivity.
Qed.
