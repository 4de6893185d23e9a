(* Bridge between the integers used by gfields.py as GF(2) polynomials and mathcomp's {poly 'F_2}. *)
From Verif Require Import Base UtilModel UtilProofs GFModel.
Set Warnings "-ambiguous-paths,-notation-overridden".
From mathcomp Require Import all_ssreflect fingroup ssralg finalg zmodp poly polydiv.

Import GRing.Theory.
Local Open Scope ring_scope.

Notation tb := Z.testbit.
(* bit -> 'F_2 *)
Definition fb (b : bool) : 'F_2 := (b : nat)%:R.

Lemma fb_xor a b : fb (xorb a b) = fb a + fb b.
Proof. by case: a; case: b; apply/val_inj. Qed.
Lemma fb_and a b : fb (a && b) = fb a * fb b.
Proof. by case: a; case: b; apply/val_inj. Qed.
Lemma fb_inj : injective fb.
Proof. by case; case=> // /(congr1 val). Qed.
Lemma fb0 : fb false = 0. Proof. by apply/val_inj. Qed.
Lemma fb1 : fb true = 1. Proof. by apply/val_inj. Qed.
Lemma F2_cases (c : 'F_2) : c = fb (c != 0).
Proof. by case: c => [[|[|n]] Hn]; apply/val_inj. Qed.

(* the polynomial whose coefficient i is bit i of x *)
Definition P (x : Z) : {poly 'F_2} := \poly_(i < Z.to_nat (bin_len x)) fb (tb x (Z.of_nat i)).

Lemma bin_len_log2 x : bin_len x = (Z.log2 x + 1)%Z.
Proof. rewrite /bin_len. case: Z.eqb_spec => [->|_] //=. Qed.

Lemma bin_len_pos x : (1 <= bin_len x)%Z.
Proof. rewrite bin_len_log2. pose proof (Z.log2_nonneg x). lia. Qed.

Lemma testbit_out x i : (0 <= x)%Z -> (bin_len x <= i)%Z -> tb x i = false.
Proof.
  intros Hx Hi. rewrite bin_len_log2 in Hi. apply Z.bits_above_log2; lia.
Qed.

Lemma coefP x i : (0 <= x)%Z -> (P x)`_i = fb (tb x (Z.of_nat i)).
Proof.
  move=> Hx. rewrite /P coef_poly. case: ltnP => // H.
  rewrite testbit_out ?fb0 //. move/leP: H => H. lia.
Qed.

Lemma P_inj x y : (0 <= x)%Z -> (0 <= y)%Z -> P x = P y -> x = y.
Proof.
  move=> Hx Hy E. apply: Z.bits_inj'. move=> n Hn. apply: fb_inj.
  have -> : n = Z.of_nat (Z.to_nat n) by rewrite Z2Nat.id.
  by rewrite -!coefP // E.
Qed.

Lemma lxor_nonneg x y : (0 <= x)%Z -> (0 <= y)%Z -> (0 <= Z.lxor x y)%Z.
Proof. move=> Hx Hy. apply Z.lxor_nonneg; tauto. Qed.

Lemma P_xor x y : (0 <= x)%Z -> (0 <= y)%Z -> P (Z.lxor x y) = P x + P y.
Proof.
  move=> Hx Hy. apply/polyP => i. rewrite coefD !coefP //; last exact: lxor_nonneg.
  by rewrite Z.lxor_spec fb_xor.
Qed.

Lemma P0 : P 0 = 0.
Proof. apply/polyP => i. by rewrite coefP // Z.bits_0 fb0 coef0. Qed.

Lemma P_eq0 x : (0 <= x)%Z -> (P x == 0) = (x =? 0)%Z.
Proof.
  move=> Hx. apply/eqP/Z.eqb_spec => [E|->]; last exact: P0.
  apply: P_inj => //. by rewrite P0.
Qed.

Lemma P1 : P 1 = 1.
Proof.
  apply/polyP => i. rewrite coefP // coef1. case: i => [|i] /=; first by rewrite fb1.
  exact: fb0.
Qed.

Lemma P_shift x k : (0 <= x)%Z -> P (Z.shiftl x (Z.of_nat k)) = P x * 'X^k.
Proof.
  move=> Hx. apply/polyP => i. rewrite coefMXn coefP; last by apply Z.shiftl_nonneg.
  case: ltnP => H.
  - rewrite Z.shiftl_spec_low ?fb0 //. move/ltP: H => H. lia.
  - rewrite coefP // Z.shiftl_spec; last lia. congr (fb (tb _ _)). move/leP: H => H. rewrite Nat2Z.inj_sub //.
Qed.

Lemma P2 : P 2 = 'X.
Proof. by rewrite -[2%Z]/(Z.shiftl 1 (Z.of_nat 1)) P_shift // P1 mul1r expr1. Qed.

Lemma size_P x : (0 < x)%Z -> size (P x) = (Z.to_nat (Z.log2 x)).+1.
Proof.
  move=> Hx. rewrite /P size_poly_eq; first by rewrite bin_len_log2; pose proof (Z.log2_nonneg x); lia.
  rewrite bin_len_log2.
  have -> : (Z.to_nat (Z.log2 x + 1)).-1 = Z.to_nat (Z.log2 x) by pose proof (Z.log2_nonneg x); lia.
  rewrite Z2Nat.id; last by apply Z.log2_nonneg.
  by rewrite Z.bit_log2 // fb1 oner_neq0.
Qed.

Lemma size_P_le x n : (0 <= x < 2 ^ Z.of_nat n)%Z -> (size (P x) <= n)%N.
Proof.
  move=> [Hx Hn]. case: (Z.eq_dec x 0) => [->|H0]; first by rewrite P0 size_poly0.
  rewrite size_P; last lia. apply/leP. assert (Z.log2 x < Z.of_nat n)%Z by (apply Z.log2_lt_pow2; lia).
  pose proof (Z.log2_nonneg x). lia.
Qed.

Lemma size_P_lt_inv x n : (0 <= x)%Z -> (size (P x) <= n)%N -> (x < 2 ^ Z.of_nat n)%Z.
Proof.
  move=> Hx. case: (Z.eq_dec x 0) => [->|H0 H]; first by move=> _; apply Z.pow_pos_nonneg; lia.
  rewrite size_P in H; last lia. move/leP: H => H. apply Z.log2_lt_pow2; first lia.
  pose proof (Z.log2_nonneg x). lia.
Qed.

Definition nz (c : 'F_2) : bool := c != 0.

(* every polynomial is the image of a non-negative integer *)
Fixpoint Zseq (s : seq 'F_2) : Z := if s is c :: s' then (Z.b2z (nz c) + 2 * Zseq s')%Z else 0%Z.
Definition Zof (p : {poly 'F_2}) : Z := Zseq p.

Lemma Zseq_cons c s : Zseq (c :: s) = (Z.b2z (nz c) + 2 * Zseq s)%Z.
Proof. by []. Qed.

Lemma Zseq_nonneg (s : seq 'F_2) : (0 <= Zseq s)%Z.
Proof. elim: s => [|c s IH]; first by []. rewrite Zseq_cons. destruct (nz c); cbn [Z.b2z]; lia. Qed.

Lemma Zof_nonneg p : (0 <= Zof p)%Z.
Proof. exact: Zseq_nonneg. Qed.

Lemma testbit_Zseq (s : seq 'F_2) i : fb (tb (Zseq s) (Z.of_nat i)) = s`_i.
Proof.
  elim: s i => [|c s IH] i; first by rewrite nth_nil Z.bits_0 fb0.
  rewrite Zseq_cons. case: i => [|i].
  - rewrite Z.bit0_odd Z.odd_add Z.odd_mul [_ && _]/= xorb_false_r. rewrite [RHS]F2_cases -/(nz c). by case: (nz c).
  - rewrite -[RHS]/(s`_i) -IH. rewrite Nat2Z.inj_succ. congr fb.
    rewrite Z.add_comm. case: (nz c); [exact: (Z.testbit_odd_succ (Zseq s) (Z.of_nat i) ltac:(lia))|].
    rewrite Z.add_0_r. exact: (Z.testbit_even_succ (Zseq s) (Z.of_nat i) ltac:(lia)).
Qed.

Lemma P_Zof p : P (Zof p) = p.
Proof. apply/polyP => i. rewrite coefP; last exact: Zof_nonneg. exact: testbit_Zseq. Qed.

Lemma Zof_P x : (0 <= x)%Z -> Zof (P x) = x.
Proof. move=> Hx. apply: P_inj; rewrite ?P_Zof //. exact: Zof_nonneg. Qed.

(* ------------------------------------------------ polydivide *)
Lemma char2_opp (p : {poly 'F_2}) : - p = p.
Proof. apply/polyP => i. rewrite coefN. by case: (p`_i) => [[|[|n]] Hn]; apply/val_inj. Qed.

Lemma lxor_top_lt x d : (0 < x)%Z -> (0 < d)%Z -> Z.log2 x = Z.log2 d ->
  (0 <= Z.lxor x d < 2 ^ Z.log2 x)%Z.
Proof.
  move=> Hx Hd E. have H0 : (0 <= Z.lxor x d)%Z by apply lxor_nonneg; lia.
  split; first exact H0.
  destruct (Z.eq_dec (Z.lxor x d) 0) as [->|Hn]; first by apply Z.pow_pos_nonneg; [lia|apply Z.log2_nonneg].
  apply Z.log2_lt_pow2; first lia.
  assert (Hle : (Z.log2 (Z.lxor x d) <= Z.log2 x)%Z).
  { pose proof (Z.log2_lxor x d ltac:(lia) ltac:(lia)). lia. }
  assert (Hne : Z.log2 (Z.lxor x d) <> Z.log2 x).
  { intros Hc. assert (Hb : tb (Z.lxor x d) (Z.log2 x) = true) by (rewrite -Hc; apply Z.bit_log2; lia).
    rewrite Z.lxor_spec in Hb. rewrite {2}E in Hb. rewrite !Z.bit_log2 in Hb; [discriminate|lia|lia]. }
  lia.
Qed.

Lemma pd_loop_big fuel : forall x y, (2 <= y)%Z -> (0 <= x)%Z -> (bin_len y <= bin_len x)%Z ->
  (Z.to_nat (bin_len x - bin_len y) < fuel)%coq_nat ->
  exists r, pd_loop fuel x y = Ok r /\ (0 <= r)%Z /\ (bin_len r < bin_len y)%Z /\ exists q, P x = q * P y + P r.
Proof.
  elim: fuel => [|fuel IH] x y Hy Hx Hle Hf; first lia.
  cbn [pd_loop].
  pose proof (bin_len_log2 x) as Bx. pose proof (bin_len_log2 y) as By.
  assert (Hly : (1 <= Z.log2 y)%Z) by (apply Z.log2_le_pow2; lia).
  assert (Hx0 : (0 < x)%Z).
  { destruct (Z.eq_dec x 0) as [->|]; [|lia]. change (bin_len 0) with 1%Z in Hle. lia. }
  set sh := (bin_len x - bin_len y)%Z in Hf *.
  assert (Hd : exists d, (if (0 <? sh)%Z then Z.shiftl y sh else y) = d /\ (0 < d)%Z /\ Z.log2 x = Z.log2 d /\ P d = P y * 'X^(Z.to_nat sh)).
  { destruct (Z.ltb_spec 0 sh) as [Hs|Hs].
    - exists (Z.shiftl y sh). split; first reflexivity. split; [|split].
      + rewrite Z.shiftl_mul_pow2; last lia. assert (0 < 2 ^ sh)%Z by (apply Z.pow_pos_nonneg; lia). nia.
      + rewrite Z.log2_shiftl; unfold sh; lia.
      + rewrite -{1}(Z2Nat.id sh); last lia. apply P_shift; lia.
    - assert (Es : (sh = 0)%Z) by (unfold sh in *; lia). exists y. split; first reflexivity. split; [lia|]. split; [unfold sh in Es; lia|].
      rewrite Es.
      by rewrite expr0 mulr1. }
  destruct Hd as (d & -> & Hd0 & Hlog & HPd).
  pose proof (lxor_top_lt _ _ Hx0 Hd0 Hlog) as [Hn Hlt].
  assert (HPx : P x = 'X^(Z.to_nat sh) * P y + P (Z.lxor x d)).
  { rewrite P_xor; try lia. rewrite HPd addrCA (mulrC _ (P y)) -{2}(char2_opp (P y * _)) subrr addr0. done. }
  assert (Hbl : (bin_len (Z.lxor x d) <= Z.log2 x)%Z).
  { rewrite bin_len_log2. destruct (Z.eq_dec (Z.lxor x d) 0) as [->|Hnz]; [cbn; lia|].
    apply Z.log2_lt_pow2 in Hlt; lia. }
  destruct (Z.leb_spec (bin_len y) (bin_len (Z.lxor x d))) as [Hc|Hc].
  - destruct (IH (Z.lxor x d) y Hy Hn Hc ltac:(lia)) as (r & Hr & Hr0 & Hrl & q & Hq).
    exists r. split; [exact Hr|]. split; [exact Hr0|]. split; [exact Hrl|].
    exists ('X^(Z.to_nat sh) + q). rewrite HPx Hq mulrDl addrA. done.
  - exists (Z.lxor x d). split; [reflexivity|]. split; [exact Hn|]. split; [exact Hc|]. exists ('X^(Z.to_nat sh)). exact HPx.
Qed.

Lemma pd_loop_small fuel x y : (2 <= y)%Z -> (0 <= x)%Z -> (bin_len x < bin_len y)%Z -> (2 <= fuel)%coq_nat ->
  pd_loop fuel x y = Ok x.
Proof.
  move=> Hy Hx Hlt. case: fuel => [|[|fuel]] Hf; try lia.
  pose proof (bin_len_log2 x) as Bx. pose proof (bin_len_log2 y) as By.
  assert (Hl : bin_len (Z.lxor x y) = bin_len y).
  { rewrite bin_len_log2 By. f_equal. destruct (Z.eq_dec x 0) as [->|Hx0]; [by rewrite Z.lxor_0_l|].
    assert (Hl1 : (Z.log2 x < Z.log2 y)%Z) by lia.
    apply Z.log2_bits_unique; first by rewrite Z.lxor_spec Z.bit_log2 ?Z.bits_above_log2; lia || reflexivity.
    move=> j Hj. by rewrite Z.lxor_spec !Z.bits_above_log2; lia || reflexivity. }
  cbn [pd_loop].
  replace (0 <? bin_len x - bin_len y)%Z with false by lia.
  rewrite Hl. replace (bin_len y <=? bin_len y)%Z with true by lia.
  replace (0 <? bin_len y - bin_len y)%Z with false by lia.
  rewrite Z.lxor_assoc Z.lxor_nilpotent Z.lxor_0_r.
  replace (bin_len y <=? bin_len x)%Z with false by lia. reflexivity.
Qed.

Lemma polydivide_spec x y : (2 <= y)%Z -> (0 <= x)%Z ->
  exists r, polydivide x y = Ok r /\ (0 <= r < 2 ^ Z.log2 y)%Z /\ P r = P x %% P y.
Proof.
  move=> Hy Hx. pose proof (bin_len_log2 x) as Bx. pose proof (bin_len_log2 y) as By.
  have Hsz : forall r, (0 <= r)%Z -> (bin_len r < bin_len y)%Z -> (0 <= r < 2 ^ Z.log2 y)%Z /\ (size (P r) < size (P y))%N.
  { move=> r Hr Hl. assert (Hlt : (r < 2 ^ Z.log2 y)%Z).
    { destruct (Z.eq_dec r 0) as [->|Hn]; [apply Z.pow_pos_nonneg; [lia|apply Z.log2_nonneg]|].
      apply Z.log2_lt_pow2; rewrite ?bin_len_log2 in Hl; lia. }
    split; [lia|]. rewrite (size_P y); last lia. apply: size_P_le.
    rewrite Z2Nat.id; [lia|apply Z.log2_nonneg]. }
  case: (Z.lt_ge_cases (bin_len x) (bin_len y)) => Hc.
  - exists x. case: (Hsz x Hx Hc) => H1 H2. split; [|split; [exact H1|by rewrite modp_small]].
    apply: pd_loop_small => //. lia.
  - case: (@pd_loop_big (Z.to_nat (bin_len x) + 3) x y Hy Hx Hc) => [|r [Hr [Hr0 [Hrl [q Hq]]]]].
    { pose proof (bin_len_pos y). rewrite -plusE. lia. }
    exists r. case: (Hsz r Hr0 Hrl) => H1 H2. split; [exact Hr|]. split; [exact H1|].
    by rewrite Hq modpD modp_mull add0r modp_small.
Qed.

Lemma pd_loop_hang fuel x y : (0 <= y <= 1)%Z -> pd_loop fuel x y = Err OutOfFuel.
Proof.
  move=> Hy. elim: fuel x => [//|fuel IH] x. cbn [pd_loop].
  assert (E : bin_len y = 1%Z) by (assert (y = 0 \/ y = 1)%Z as [-> | ->] by lia; reflexivity).
  set x' := Z.lxor _ _. pose proof (bin_len_pos x'). rewrite E. replace (1 <=? bin_len x')%Z with true by lia. exact: IH.
Qed.

(* ------------------------------------------------ multiplication *)
Lemma fb_odd_Zsum (f : nat -> Z) n : fb (Z.odd (Zsum (List.map f (List.seq 0 n)))) = \sum_(j < n) fb (Z.odd (f j)).
Proof.
  elim: n => [|n IH]; first by rewrite big_ord0 fb0.
  rewrite big_ord_recr -IH. have {1}-> : n.+1 = Nat.add n 1 by lia.
  rewrite List.seq_app List.map_app Zsum_app Z.odd_add fb_xor. by rewrite /= Z.add_0_r.
Qed.

Lemma testbit_b2d l i : bits l -> (Z.of_nat i < Z.of_nat (length l))%Z ->
  tb (bitarray2dec l) (Z.of_nat i) = Z.odd (List.nth (length l - 1 - i) l 0%Z).
Proof.
  move=> Hb Hi. rewrite (testbit_b2d_bits (fun q => Z.odd (List.nth (Z.to_nat (Z.of_nat (length l) - 1 - q)) l 0%Z)) (length l)).
  - congr Z.odd. congr List.nth. rewrite -!minusE. lia.
  - reflexivity.
  - move=> j Hj. rewrite {1}(bit_odd (List.nth j l 0%Z)); last exact: bits_nth.
    congr (Z.b2z (Z.odd (List.nth _ _ _))). lia.
  - lia.
Qed.

Lemma b2d_nonneg l : bits l -> (0 <= bitarray2dec l)%Z.
Proof. move=> H. pose proof (bitarray2dec_range l H). lia. Qed.

Lemma coef_P_b2d l i : bits l ->
  (P (bitarray2dec l))`_i = if (i < length l)%N then fb (Z.odd (List.nth (length l - 1 - i) l 0%Z)) else 0.
Proof.
  move=> H. rewrite coefP; last exact: b2d_nonneg. case: ltnP => Hi.
  - rewrite testbit_b2d //. move/ltP: Hi => Hi. lia.
  - move/leP: Hi => Hi. have Hz : tb (bitarray2dec l) (Z.of_nat i) = false; last by rewrite Hz fb0.
    pose proof (bitarray2dec_range l H) as R. destruct (Z.eq_dec (bitarray2dec l) 0) as [->|Hn]; [apply Z.bits_0|].
    apply Z.bits_above_log2; [lia|]. assert (Z.log2 (bitarray2dec l) < Z.of_nat (length l))%Z by (apply Z.log2_lt_pow2; lia). lia.
Qed.

Lemma poly_coef_sum (p q : {poly 'F_2}) m i : (size p <= m)%N ->
  (p * q)`_i = \sum_(j < m) p`_j * (if (i < j)%N then 0 else q`_(i - j)).
Proof.
  move=> Hs. have {1}-> : p = \sum_(j < m) p`_j *: 'X^j.
  { rewrite -poly_def. apply/polyP => t. rewrite coef_poly. case: ltnP => // Ht. by rewrite nth_default // (leq_trans Hs). }
  rewrite mulr_suml coef_sum. apply: eq_bigr => j _. by rewrite -scalerAl coefZ mulrC -commr_polyXn mulrC coefMXn.
Qed.

Lemma conv_mod2_spec a b : a <> [::] -> b <> [::] -> exists c, conv_mod2 a b = Ok c /\ bits c /\
  length c = (length a + length b - 1)%N /\
  forall k, (k < length c)%N -> fb (Z.odd (List.nth k c 0%Z)) =
    \sum_(j < length a) fb (Z.odd (List.nth j a 0%Z)) * (if (j <= k)%N then fb (Z.odd (List.nth (k - j) b 0%Z)) else 0).
Proof.
  move=> Ha Hb. rewrite /conv_mod2 /convolve. case Ea : a => [//|a0 a']; case Eb : b => [//|b0 b'].
  rewrite -Ea -Eb. cbn [bind]. eexists. split; first reflexivity. split; [|split].
  - apply/List.Forall_forall => x /List.in_map_iff [v [<- _]]. exact: is_bit_mod2.
  - rewrite !List.map_length List.seq_length. rewrite -minusE -plusE. lia.
  - move=> k. rewrite !List.map_length List.seq_length => Hk.
    rewrite (nth_map_lt (fun v => v mod 2)%Z _ _ 0%Z); last first.
    { rewrite List.map_length List.seq_length. by apply/ltP. }
    rewrite nth_map_seq; last by apply/ltP.
    rewrite odd_mod2 fb_odd_Zsum. apply: eq_bigr => j _.
    rewrite Z.odd_mul fb_and. congr (_ * _). case: (Nat.leb_spec j k) => H.
    + have -> : (j <= k)%N by apply/leP. by rewrite -minusE.
    + have -> : (j <= k)%N = false by apply/negbTE; rewrite -ltnNge; apply/ltP. exact: fb0.
Qed.

Lemma bits_msb_nonempty m x : (1 <= m)%coq_nat -> bits_msb m x <> [::].
Proof. move=> Hm E. pose proof (bits_msb_length m x) as H. rewrite E in H. cbn in H. lia. Qed.

(* product of the polynomials read MSB-first from two bit arrays *)
Lemma conv_mod2_poly a b : a <> [::] -> b <> [::] -> bits a -> bits b ->
  exists c, conv_mod2 a b = Ok c /\ bits c /\ length c = (length a + length b - 1)%N /\
            P (bitarray2dec c) = P (bitarray2dec a) * P (bitarray2dec b).
Proof.
  move=> Ha Hb Ba Bb. case: (conv_mod2_spec a b Ha Hb) => c [Hc [Bc [Lc Hk]]].
  exists c. split=> //. split=> //. split=> //. apply/polyP => i.
  have La : (0 < length a)%coq_nat by (case: (a) Ha => //= *; lia).
  have Lb : (0 < length b)%coq_nat by (case: (b) Hb => //= *; lia).
  have Sa : (size (P (bitarray2dec a)) <= length a)%N by apply: size_P_le; exact: bitarray2dec_range.
  rewrite (poly_coef_sum _ _ (length a)) // coef_P_b2d //. case: ltnP => Hi.
  - rewrite Hk; last by rewrite Lc in Hi *; move/ltP: Hi => Hi; apply/ltP; rewrite -!minusE -plusE in Hi *; lia.
    rewrite (reindex_inj rev_ord_inj). apply: eq_bigr => j _. rewrite !coef_P_b2d //.
    have Hj := ltn_ord j. rewrite Hj. move/ltP: Hj => Hj. rewrite Lc in Hi *. move/ltP: Hi => Hi.
    congr (_ * _).
    { congr (fb (Z.odd (List.nth _ _ _))). rewrite /= -!minusE. lia. }
    rewrite /=. case: (ltnP i j) => Hij.
    + move/ltP: Hij => Hij. case: ifP => // _. rewrite List.nth_overflow ?fb0 //.
      rewrite -!minusE -plusE in Hi *. lia.
    + move/leP: Hij => Hij. case: ltnP => Hlt; [move/ltP: Hlt => Hlt|move/leP: Hlt => Hlt].
      * have -> : (length a - j.+1 <= length a + length b - 1 - 1 - i)%N.
        { apply/leP. rewrite -!minusE -plusE in Hi Hlt *. lia. }
        congr (fb (Z.odd (List.nth _ _ _))). rewrite -!minusE -plusE in Hi Hlt *. lia.
      * case: ifP => // /leP Hc2. rewrite -!minusE -plusE in Hi Hlt Hc2. lia.
  - symmetry. apply: big1 => j _. case: ltnP => Hij; first by rewrite mulr0.
    rewrite !coef_P_b2d //. have Hj := ltn_ord j. case: (ltnP (i - j) (length b)) => Hlt; last by rewrite mulr0.
    exfalso. rewrite Lc in Hi. move/leP: Hi => Hi. move/ltP: Hlt => Hlt. move/ltP: Hj => Hj. move/leP: Hij => Hij.
    rewrite -!minusE -?plusE in Hi Hlt. lia.
Qed.

Lemma polymultiply_spec x y m pp : (1 <= m)%coq_nat -> (2 <= pp)%Z ->
  (0 <= x < 2 ^ Z.of_nat m)%Z -> (0 <= y < 2 ^ Z.of_nat m)%Z ->
  exists r, polymultiply x y m pp = Ok r /\ (0 <= r < 2 ^ Z.log2 pp)%Z /\ P r = (P x * P y) %% P pp.
Proof.
  move=> Hm Hpp Hx Hy. rewrite /polymultiply /dec2bitarray !decimal2bitarray_ok //. cbn [bind].
  case: (conv_mod2_poly (bits_msb m x) (bits_msb m y)) => [||||c [-> [Bc [Lc HP]]]];
    try exact: bits_msb_nonempty; try exact: bits_msb_bits.
  cbn [bind]. case: (polydivide_spec (bitarray2dec c) pp Hpp (b2d_nonneg c Bc)) => r [-> [Hr HPr]].
  exists r. split=> //. split=> //. rewrite HPr HP !b2d_bits_msb !Z.mod_small //.
Qed.
