(* Proofs about the Trellis constructor. *)
From Verif Require Import Base UtilModel UtilProofs TrellisModel TrellisSpec.

(* ---------------------------------------------------------------- sums *)
Lemma odd_Zsum {A} (f : A -> Z) (l : list A) : Z.odd (Zsum (map f l)) = xsum (map (fun x => Z.odd (f x)) l).
Proof. induction l as [|a l IH]; [reflexivity|]. cbn [map]. rewrite Zsum_cons, Z.odd_add, IH. reflexivity. Qed.

Lemma xsum_cons a l : xsum (a :: l) = xorb a (xsum l). Proof. reflexivity. Qed.

Lemma xsum_app l l' : xsum (l ++ l') = xorb (xsum l) (xsum l').
Proof. induction l as [|a l IH]; [cbn [app]; destruct (xsum l'); reflexivity|]. cbn [app]. rewrite !xsum_cons, IH. apply xorb_assoc_reverse || (rewrite xorb_assoc; reflexivity). Qed.

Lemma xsum_ext {A} (f g : A -> bool) l : (forall x, In x l -> f x = g x) -> xsum (map f l) = xsum (map g l).
Proof. intros H. f_equal. apply map_ext_in. exact H. Qed.

Lemma xsum_false {A} (f : A -> bool) l : (forall x, In x l -> f x = false) -> xsum (map f l) = false.
Proof. induction l as [|a l IH]; intros H; [reflexivity|]. cbn [map xsum fold_right]. rewrite (H a) by (left; reflexivity). fold (xsum (map f l)). rewrite IH by (intros x Hx; apply H; right; exact Hx). reflexivity. Qed.

Lemma xsum_xor {A} (f g : A -> bool) l : xsum (map (fun x => xorb (f x) (g x)) l) = xorb (xsum (map f l)) (xsum (map g l)).
Proof. induction l as [|a l IH]; [reflexivity|]. cbn [map xsum fold_right]. fold (xsum (map f l)) (xsum (map g l)) (xsum (map (fun x => xorb (f x) (g x)) l)). rewrite IH. destruct (f a), (g a), (xsum (map f l)), (xsum (map g l)); reflexivity. Qed.

Lemma xsum_swap {A B} (f : A -> B -> bool) la : forall lb,
  xsum (map (fun a => xsum (map (fun b => f a b) lb)) la) = xsum (map (fun b => xsum (map (fun a => f a b) la)) lb).
Proof.
  induction la as [|a la IH]; intros lb.
  - cbn [map]. symmetry. apply xsum_false. reflexivity.
  - cbn [map xsum fold_right]. fold (xsum (map (fun a => xsum (map (fun b => f a b) lb)) la)).
    rewrite IH, <- xsum_xor. reflexivity.
Qed.

(* a sum of which all terms but one vanish *)
Lemma xsum_single (f : nat -> bool) n i : (i < n)%nat -> (forall j, (j < n)%nat -> j <> i -> f j = false) -> xsum (map f (seq 0 n)) = f i.
Proof.
  intros Hi H. replace (seq 0 n) with (seq 0 i ++ i :: seq (S i) (n - S i)).
  - rewrite map_app, xsum_app. cbn [map xsum fold_right]. fold (xsum (map f (seq (S i) (n - S i)))).
    rewrite !xsum_false; [destruct (f i); reflexivity| |]; intros x Hx; apply in_seq in Hx; apply H; lia.
  - replace n with (i + S (n - S i))%nat at 2 by lia. rewrite seq_app. reflexivity.
Qed.

Lemma xsum_trunc (f : nat -> bool) a b : (a <= b)%nat -> (forall d, (a <= d)%nat -> f d = false) -> xsum (map f (seq 0 b)) = xsum (map f (seq 0 a)).
Proof.
  intros Hab H. replace b with (a + (b - a))%nat by lia. rewrite seq_app, map_app, xsum_app.
  rewrite (xsum_false f (seq (0 + a) (b - a))); [destruct (xsum (map f (seq 0 a))); reflexivity|].
  intros x Hx. apply in_seq in Hx. apply H. lia.
Qed.

Lemma odd_int8 z : Z.odd (int8 z) = Z.odd z.
Proof.
  unfold int8. rewrite Z.odd_sub. replace (Z.odd 128) with false by reflexivity. rewrite xorb_false_r.
  rewrite (Z.mod_eq (z + 128) 256) by lia. rewrite Z.odd_sub, Z.odd_add, Z.odd_mul.
  replace (Z.odd 128) with false by reflexivity. replace (Z.odd 256) with false by reflexivity.
  rewrite xorb_false_r. apply xorb_false_r.
Qed.

(* ---------------------------------------------------------------- the coefficient arrays *)
Definition mapM_Ok' := @mapM_Ok.

Lemma poly_array_spec fmt W rows cols m : fmt <> OtherFormat ->
  (forall i j, (i < rows)%nat -> (j < cols)%nat -> 0 <= mat_get m i j < 2 ^ Z.of_nat W) ->
  exists a, poly_array fmt W rows cols m = Ok a /\
    forall d i j, (d < W)%nat -> (i < rows)%nat -> (j < cols)%nat -> coef a d i j = Z.b2z (pcoef fmt W (mat_get m i j) d).
Proof.
  intros Hf Hr.
  pose (view p := match fmt with MSB => rev (bits_msb W p) | _ => bits_msb W p end).
  assert (Hv : forall i j, (i < rows)%nat -> (j < cols)%nat -> binary_view fmt W (mat_get m i j) = Ok (view (mat_get m i j))).
  { intros i j Hi Hj. unfold binary_view, dec2bitarray. rewrite decimal2bitarray_ok by (apply Hr; assumption). reflexivity. }
  exists (map (fun i => map (fun j => view (mat_get m i j)) (seq 0 cols)) (seq 0 rows)). split.
  - unfold poly_array. apply mapM_Ok. intros i Hi. apply in_seq in Hi. apply mapM_Ok. intros j Hj. apply in_seq in Hj. apply Hv; lia.
  - intros d i j Hd Hi Hj. unfold coef. rewrite nth_map_seq by exact Hi. rewrite nth_map_seq by exact Hj.
    unfold view, pcoef. destruct fmt; [| |contradiction].
    + rewrite rev_nth by (rewrite bits_msb_length; exact Hd). rewrite bits_msb_length, bits_msb_nth by lia. do 2 f_equal. lia.
    + rewrite bits_msb_nth by exact Hd. replace (d <? W)%nat with true by (symmetry; apply Nat.ltb_lt; exact Hd). reflexivity.
Qed.

(* ---------------------------------------------------------------- flattening the delay lines *)
Lemma sum_mem_cons m l : sum_mem (m :: l) = (m + sum_mem l)%nat. Proof. reflexivity. Qed.

Lemma offset_S m l c : offset (m :: l) (S c) = (m + offset l c)%nat. Proof. reflexivity. Qed.

Lemma offset_bound l : forall c, (c < length l)%nat -> (offset l c + nth c l 0 <= sum_mem l)%nat.
Proof.
  induction l as [|m l IH]; intros c Hc; cbn [length] in Hc; [lia|]. destruct c as [|c].
  - cbn [nth]. rewrite sum_mem_cons. unfold offset. cbn. lia.
  - rewrite offset_S, sum_mem_cons. cbn [nth]. specialize (IH c ltac:(lia)). lia.
Qed.

Lemma flat_length {A} l : forall (f : nat -> nat -> A), length (concat (map (fun c => map (f c) (seq 0 (nth c l 0%nat))) (seq 0 (length l)))) = sum_mem l.
Proof.
  induction l as [|m l IH]; intros f; [reflexivity|]. cbn [length seq map concat]. rewrite app_length, map_seq_length, sum_mem_cons.
  f_equal. rewrite <- seq_shift, map_map. apply (IH (fun c => f (S c))).
Qed.

Lemma flat_nth {A} (d : A) l : forall (f : nat -> nat -> A) c r, (c < length l)%nat -> (r < nth c l 0)%nat ->
  nth (offset l c + r) (concat (map (fun c => map (f c) (seq 0 (nth c l 0%nat))) (seq 0 (length l)))) d = f c r.
Proof.
  induction l as [|m l IH]; intros f c r Hc Hr; cbn [length] in Hc; [lia|]. cbn [length seq map concat]. destruct c as [|c].
  - cbn [nth] in *. replace (offset (m :: l) 0 + r)%nat with r by (unfold offset; cbn; lia).
    rewrite app_nth1 by (rewrite map_seq_length; exact Hr). apply nth_map_seq. exact Hr.
  - rewrite offset_S. cbn [nth] in Hr. rewrite app_nth2; rewrite map_seq_length; [|cbn [nth]; lia]. cbn [nth].
    rewrite <- seq_shift, map_map. replace (m + offset l c + r - m)%nat with (offset l c + r)%nat by lia.
    apply (IH (fun c => f (S c))); [lia|exact Hr].
Qed.

(* every position below sum_mem belongs to one line *)
Lemma flat_pos l : forall p, (p < sum_mem l)%nat -> exists c r, (c < length l)%nat /\ (r < nth c l 0)%nat /\ p = (offset l c + r)%nat.
Proof.
  induction l as [|m l IH]; intros p Hp; [cbn in Hp; lia|]. rewrite sum_mem_cons in Hp.
  destruct (Nat.lt_ge_cases p m) as [H|H].
  - exists 0%nat, p. cbn [length nth]. unfold offset. cbn. repeat split; lia.
  - destruct (IH (p - m)%nat ltac:(lia)) as (c & r & Hc & Hr & E). exists (S c), r. rewrite offset_S. cbn [length nth]. repeat split; lia.
Qed.

Lemma concat_bits (ll : list (list Z)) : Forall bits ll -> bits (concat ll).
Proof. intros H. induction H as [|b ll Hb H IH]; [constructor|]. cbn [concat]. apply bits_app. split; assumption. Qed.

(* ---------------------------------------------------------------- one table entry *)
Section Code.
Variable C : code.
Hypothesis WF : well_formed C.

Let k := kk C.
Let M := MM C.
Let W := WW C.
Let n := outs C.

Definition newcell (s u : Z) (c d : nat) : bool :=
  if (d =? 1)%nat then line_sum C (fun i e => cell (memory C) s u i e && fcoef C c i e) else cell (memory C) s u c (d - 1).
Definition out_f (s u : Z) : Z :=
  bitarray2dec (map (fun j => Z.b2z (line_sum C (fun i d => cell (memory C) s u i d && gcoef C i j d))) (seq 0 n)).
Definition next_f (s u : Z) : Z :=
  bitarray2dec (concat (map (fun c => map (fun r => Z.b2z (newcell s u c (S r))) (seq 0 (mem C c))) (seq 0 k))).

Lemma k_pos : (1 <= k)%nat.
Proof. destruct WF as (H & _). unfold k, kk. destruct (memory C); [contradiction|cbn; lia]. Qed.

Lemma len_gens : length (gens C) = k. Proof. exact (proj1 (proj2 WF)). Qed.

Lemma mem_max c : (mem C c < W)%nat.
Proof.
  unfold mem, W, WW. set (l := memory C). clearbody l. revert c. induction l as [|m l IH]; intros c; [destruct c; cbn; lia|].
  destruct c as [|c]; cbn [nth max_mem fold_right]; [lia|]. specialize (IH c). unfold max_mem in IH. lia.
Qed.

Lemma out_bits_bits s u : bits (map (fun j => Z.b2z (line_sum C (fun i d => cell (memory C) s u i d && gcoef C i j d))) (seq 0 n)).
Proof. apply Forall_forall. intros x Hx. apply in_map_iff in Hx. destruct Hx as (j & <- & _). apply is_bit_b2z. Qed.

Lemma next_bits_bits s u : bits (concat (map (fun c => map (fun r => Z.b2z (newcell s u c (S r))) (seq 0 (mem C c))) (seq 0 k))).
Proof.
  apply concat_bits. apply Forall_forall. intros b Hb. apply in_map_iff in Hb. destruct Hb as (c & <- & _).
  apply Forall_forall. intros x Hx. apply in_map_iff in Hx. destruct Hx as (r & <- & _). apply is_bit_b2z.
Qed.

Lemma next_bits_length s u : length (concat (map (fun c => map (fun r => Z.b2z (newcell s u c (S r))) (seq 0 (mem C c))) (seq 0 k))) = M.
Proof. apply (flat_length (memory C) (fun c r => Z.b2z (newcell s u c (S r)))). Qed.

Lemma out_f_range s u : 0 <= out_f s u < 2 ^ Z.of_nat n.
Proof. pose proof (bitarray2dec_range _ (out_bits_bits s u)) as H. rewrite map_seq_length in H. exact H. Qed.
Lemma next_f_range s u : 0 <= next_f s u < 2 ^ Z.of_nat M.
Proof. pose proof (bitarray2dec_range _ (next_bits_bits s u)) as H. rewrite next_bits_length in H. exact H. Qed.

Lemma out_f_bit s u j : (j < n)%nat -> Z.testbit (out_f s u) (Z.of_nat n - 1 - Z.of_nat j) =
  line_sum C (fun i d => cell (memory C) s u i d && gcoef C i j d).
Proof.
  intros Hj. unfold out_f. set (h := fun j => line_sum C (fun i d => cell (memory C) s u i d && gcoef C i j d)).
  rewrite (testbit_b2d_bits (fun q => h (Z.to_nat (Z.of_nat n - 1 - q))) n); [cbv beta; replace (Z.to_nat (Z.of_nat n - 1 - (Z.of_nat n - 1 - Z.of_nat j))) with j by lia; reflexivity|apply map_seq_length| |lia].
  intros j' Hj'. rewrite nth_map_seq by exact Hj'. replace (Z.to_nat (Z.of_nat n - 1 - (Z.of_nat n - 1 - Z.of_nat j'))) with j' by lia. reflexivity.
Qed.

Lemma next_f_cell s u c d : (c < k)%nat -> (1 <= d <= mem C c)%nat -> cell (memory C) (next_f s u) 0 c d = newcell s u c d.
Proof.
  intros Hc Hd. unfold cell. replace (d =? 0)%nat with false by lia.
  pose proof (offset_bound (memory C) c Hc) as Hb. fold (mem C c) in Hb. fold (MM C) in Hb. fold M in Hb. fold (MM C). fold M.
  set (l := concat (map (fun c => map (fun r => Z.b2z (newcell s u c (S r))) (seq 0 (mem C c))) (seq 0 k))).
  assert (Hl : length l = M) by apply next_bits_length.
  pose proof (next_bits_bits s u) as HB. fold l in HB.
  assert (Hn : nth (offset (memory C) c + (d - 1)) l 0 = Z.b2z (newcell s u c d)).
  { replace d with (S (d - 1)) at 2 by lia.
    exact (flat_nth 0 (memory C) (fun c r => Z.b2z (newcell s u c (S r))) c (d - 1) Hc ltac:(fold (mem C c); lia)). }
  assert (E : nth (offset (memory C) c + (d - 1)) l 0 = Z.b2z (Z.testbit (next_f s u) (Z.of_nat M - 1 - Z.of_nat (offset (memory C) c + (d - 1))))).
  { rewrite <- bits_msb_nth by lia. unfold next_f. fold l. rewrite <- (bits_msb_b2d l HB) at 1. rewrite Hl. reflexivity. }
  rewrite Hn in E. apply Z.b2z_inj in E. rewrite E. f_equal. lia.
Qed.

(* the encoder step holds of out_f, next_f *)
Lemma step_f s u : encoder_step C s u (out_f s u) (next_f s u).
Proof.
  split; [apply out_f_range|]. split; [apply next_f_range|]. split; [intros j Hj; apply out_f_bit; exact Hj|].
  intros c d Hc Hd. rewrite next_f_cell by assumption. reflexivity.
Qed.

(* and determines them *)
Lemma states_ext s s' : 0 <= s < 2 ^ Z.of_nat M -> 0 <= s' < 2 ^ Z.of_nat M ->
  (forall c d, (c < k)%nat -> (1 <= d <= mem C c)%nat -> cell (memory C) s 0 c d = cell (memory C) s' 0 c d) -> s = s'.
Proof.
  intros Hs Hs' H. apply Z.bits_inj'. intros q Hq. destruct (Z.lt_ge_cases q (Z.of_nat M)) as [Hl|Hl].
  - destruct (flat_pos (memory C) (Z.to_nat (Z.of_nat M - 1 - q))) as (c & r & Hc & Hr & E); [fold (MM C); fold M; lia|].
    specialize (H c (S r) Hc ltac:(unfold mem; lia)). unfold cell in H. cbn [Nat.eqb] in H.
    fold (MM C) in H. fold M in H. replace (Z.of_nat M - Z.of_nat (offset (memory C) c) - Z.of_nat (S r)) with q in H by lia. exact H.
  - rewrite <- (Z.mod_small s (2 ^ Z.of_nat M)), <- (Z.mod_small s' (2 ^ Z.of_nat M)) by assumption.
    rewrite !Z.mod_pow2_bits_high by lia. reflexivity.
Qed.

Lemma outs_ext m o o' : 0 <= o < 2 ^ Z.of_nat m -> 0 <= o' < 2 ^ Z.of_nat m ->
  (forall j, (j < m)%nat -> Z.testbit o (Z.of_nat m - 1 - Z.of_nat j) = Z.testbit o' (Z.of_nat m - 1 - Z.of_nat j)) -> o = o'.
Proof.
  intros Ho Ho' H. apply Z.bits_inj'. intros q Hq. destruct (Z.lt_ge_cases q (Z.of_nat m)) as [Hl|Hl].
  - specialize (H (Z.to_nat (Z.of_nat m - 1 - q)) ltac:(lia)). replace (Z.of_nat m - 1 - Z.of_nat (Z.to_nat (Z.of_nat m - 1 - q))) with q in H by lia. exact H.
  - rewrite <- (Z.mod_small o (2 ^ Z.of_nat m)), <- (Z.mod_small o' (2 ^ Z.of_nat m)) by assumption.
    rewrite !Z.mod_pow2_bits_high by lia. reflexivity.
Qed.

Lemma step_unique s u o s' : encoder_step C s u o s' -> o = out_f s u /\ s' = next_f s u.
Proof.
  intros (Ho & Hs' & H1 & H2). split.
  - apply (outs_ext n); [exact Ho|apply out_f_range|]. intros j Hj. rewrite H1 by exact Hj. rewrite out_f_bit by exact Hj. reflexivity.
  - apply states_ext; [exact Hs'|apply next_f_range|]. intros c d Hc Hd. rewrite H2 by assumption. rewrite next_f_cell by assumption. reflexivity.
Qed.

(* ---------------------------------------------------------------- the model computes them *)
Definition feedback_matrix : list (list Z) := match fback C with Some f => f | None => default_feedback (fmt C) k (max_mem (memory C)) end.

Lemma feedback_ok : forall c i, (c < k)%nat -> (i < k)%nat ->
  0 <= mat_get feedback_matrix c i < 2 ^ Z.of_nat W /\
  forall d, (d < W)%nat -> pcoef (fmt C) W (mat_get feedback_matrix c i) d = fcoef C c i d.
Proof.
  intros c i Hc Hi. destruct WF as (_ & _ & Hf & _ & HF). unfold feedback_matrix, fcoef. destruct (fback C) as [F|] eqn:E.
  - split; [apply (HF F eq_refl); assumption|]. reflexivity.
  - unfold default_feedback, mat_get. rewrite nth_map_seq by exact Hc. rewrite nth_map_seq by exact Hi.
    set (mx := max_mem (memory C)). assert (HW : W = (mx + 1)%nat) by reflexivity.
    assert (Hp : 0 < 2 ^ Z.of_nat mx) by (apply Z.pow_pos_nonneg; lia).
    assert (HpW : 2 ^ Z.of_nat W = 2 * 2 ^ Z.of_nat mx) by (rewrite HW, Nat2Z.inj_add, Z.pow_add_r by lia; lia).
    split.
    { destruct (Nat.eqb_spec c i); destruct (fmt C); lia. }
    intros d Hd. destruct (Nat.eqb_spec c i) as [->|Hne].
    + cbn [andb]. destruct (fmt C); [| |contradiction]; unfold pcoef.
      * rewrite Z.mul_1_l. destruct d as [|d]; [reflexivity|]. rewrite Z.bits_above_log2; [reflexivity|lia|cbn; lia].
      * rewrite Z.mul_1_l. replace (d <? W)%nat with true by lia. cbn [andb]. rewrite Z.pow2_bits_eqb by lia.
        destruct (Z.eqb_spec (Z.of_nat mx) (Z.of_nat W - 1 - Z.of_nat d)); lia.
    + rewrite Z.mul_0_l. unfold pcoef. destruct (fmt C); rewrite Z.bits_0, ?andb_false_r; reflexivity.
Qed.

Lemma mod2_b2z z : z mod 2 = Z.b2z (Z.odd z). Proof. apply mod2_odd. Qed.

(* the double sum of the einsum, mod 2 *)
Lemma einsum_spec (sr1 : regs) s u (co : nat -> nat -> Z) (cb : nat -> nat -> bool) :
  (forall c, (c < k)%nat -> sr1 0%nat c = Z.b2z (cell (memory C) s u c 0)) ->
  (forall c d, (c < k)%nat -> (1 <= d <= mem C c)%nat -> sr1 d c = Z.b2z (cell (memory C) s u c d)) ->
  (forall c d, (c < k)%nat -> (d < W)%nat -> co d c = Z.b2z (cb c d)) ->
  (forall c d, (c < k)%nat -> (mem C c < d)%nat -> cb c d = false) ->
  Z.odd (einsum_ik W k sr1 co) =
  line_sum C (fun i d => cell (memory C) s u i d && cb i d).
Proof.
  intros H0 H1 Hco Hfit. unfold einsum_ik. rewrite odd_int8, odd_Zsum.
  rewrite (xsum_ext _ (fun i => xsum (map (fun c => Z.odd (sr1 i c * co i c)) (seq 0 k))) (seq 0 W)) by (intros; apply odd_Zsum).
  rewrite xsum_swap. unfold line_sum. fold k. apply xsum_ext. intros c Hc. apply in_seq in Hc.
  pose proof (mem_max c) as Hm.
  transitivity (xsum (map (fun d => if (d <? W)%nat then Z.odd (sr1 d c * co d c) else false) (seq 0 W))).
  { apply xsum_ext. intros d Hd. apply in_seq in Hd. replace (d <? W)%nat with true by lia. reflexivity. }
  rewrite (xsum_trunc _ (S (mem C c)) W) by first [lia | intros d Hd; destruct (Nat.ltb_spec d W) as [Hlt|Hge]; [|reflexivity];
    rewrite Hco by lia; rewrite Hfit by lia; rewrite Z.mul_0_r; reflexivity].
  apply xsum_ext. intros d Hd. apply in_seq in Hd. replace (d <? W)%nat with true by lia.
  rewrite Hco by lia. rewrite Z.odd_mul, odd_b2z. f_equal. destruct d as [|d]; [rewrite H0 by lia|rewrite H1 by lia]; apply odd_b2z.
Qed.

Lemma trellis_entry_spec fb g sr (s u : nat) :
  (forall d i j, (d < W)%nat -> (i < k)%nat -> (j < k)%nat -> coef fb d i j = Z.b2z (fcoef C i j d)) ->
  (forall d i j, (d < W)%nat -> (i < k)%nat -> (j < n)%nat -> coef g d i j = Z.b2z (gcoef C i j d)) ->
  Z.of_nat s < 2 ^ Z.of_nat M -> Z.of_nat u < 2 ^ Z.of_nat k ->
  exists sr', trellis_entry (memory C) k n W fb g sr s u = Ok (out_f (Z.of_nat s) (Z.of_nat u), next_f (Z.of_nat s) (Z.of_nat u), sr').
Proof.
  intros Hfb Hg Hs Hu. unfold trellis_entry. fold (MM C). fold M. unfold dec2bitarray.
  rewrite decimal2bitarray_ok by lia. cbn [bind]. rewrite decimal2bitarray_ok by lia. cbn [bind].
  set (sr1 := load_regs (memory C) (bits_msb k (Z.of_nat u)) (bits_msb M (Z.of_nat s)) sr).
  assert (H0 : forall c, (c < k)%nat -> sr1 0%nat c = Z.b2z (cell (memory C) (Z.of_nat s) (Z.of_nat u) c 0)).
  { intros c Hc. unfold sr1, load_regs. cbn [Nat.eqb]. rewrite bits_msb_nth by exact Hc. reflexivity. }
  assert (H1 : forall c d, (c < k)%nat -> (1 <= d <= mem C c)%nat -> sr1 d c = Z.b2z (cell (memory C) (Z.of_nat s) (Z.of_nat u) c d)).
  { intros c d Hc Hd. unfold sr1, load_regs, cell. replace (d =? 0)%nat with false by lia. fold (mem C c). replace (d <=? mem C c)%nat with true by lia.
    pose proof (offset_bound (memory C) c Hc) as Hb. fold (mem C c) (MM C) in Hb. fold M in Hb. fold (MM C). fold M.
    rewrite bits_msb_nth by lia. do 2 f_equal. lia. }
  clearbody sr1.
  eexists. f_equal. f_equal. f_equal.
  - unfold out_f. f_equal. apply map_ext_in. intros j Hj. apply in_seq in Hj. rewrite mod2_odd. f_equal.
    apply einsum_spec; [exact H0|exact H1| |].
    + intros c d Hc Hd. apply Hg; lia.
    + intros c d Hc Hd. destruct WF as (_ & _ & _ & HG & _). apply (HG c j); try lia; assumption.
  - unfold next_f, flatten_regs. do 2 f_equal. apply map_ext_in. intros c Hc. apply in_seq in Hc. fold (mem C c).
    apply map_ext_in. intros r Hr. apply in_seq in Hr. unfold newcell, feedback_regs. destruct (Nat.eqb_spec r 0) as [->|Hr0].
    + cbn [Nat.eqb]. rewrite mod2_odd. f_equal. apply einsum_spec; [exact H0|exact H1| |].
      * intros c' d Hc' Hd. apply Hfb; lia.
      * intros c' d Hc' Hd. destruct WF as (_ & _ & _ & _ & HF). unfold fcoef in *. destruct (fback C) as [F|] eqn:E.
        -- apply (HF F eq_refl c c'); try lia; assumption.
        -- destruct (Nat.eqb_spec c c'); destruct (Nat.eqb_spec d 0); lia.
    + replace (S r =? 1)%nat with false by lia. rewrite H1 by lia. replace (S r - 1)%nat with r by lia.
      rewrite mod2_odd, odd_b2z. reflexivity.
Qed.

Lemma trellis_row_spec (ent : regs -> nat -> res (Z * Z * regs)) (o nx : nat -> Z) l :
  (forall sr u, In u l -> exists sr', ent sr u = Ok (o u, nx u, sr')) ->
  forall sr, exists sr', trellis_row ent sr l = Ok (map o l, map nx l, sr').
Proof.
  induction l as [|u l IH]; intros H sr; [exists sr; reflexivity|].
  cbn [trellis_row]. destruct (H sr u (or_introl eq_refl)) as (sr1 & ->). cbn [bind].
  destruct (IH ltac:(intros; apply H; right; assumption) sr1) as (sr2 & ->). cbn [bind map]. exists sr2. reflexivity.
Qed.
Lemma trellis_rows_spec (row : regs -> nat -> res (list Z * list Z * regs)) (o nx : nat -> list Z) l :
  (forall sr u, In u l -> exists sr', row sr u = Ok (o u, nx u, sr')) ->
  forall sr, trellis_rows row sr l = Ok (map o l, map nx l).
Proof.
  induction l as [|u l IH]; intros H sr; [reflexivity|].
  cbn [trellis_rows]. destruct (H sr u (or_introl eq_refl)) as (sr1 & ->). cbn [bind].
  rewrite (IH ltac:(intros; apply H; right; assumption) sr1). reflexivity.
Qed.

Definition table (f : Z -> Z -> Z) : list (list Z) :=
  map (fun s => map (fun u => f (Z.of_nat s) (Z.of_nat u)) (seq 0 (2 ^ k))) (seq 0 (2 ^ M)).
Definition the_trellis (rsc : bool) : Trellis :=
  {| tr_k := k; tr_n := n; tr_M := M; tr_next := table next_f; tr_out := table out_f; tr_rsc := rsc |}.

Lemma pow2_nat a : Z.of_nat (2 ^ a) = 2 ^ Z.of_nat a. Proof. rewrite Nat2Z.inj_pow. reflexivity. Qed.

Lemma trellis_of_spec garbage rsc : trellis_of garbage C rsc = Ok (the_trellis rsc).
Proof.
  pose proof WF as (Hne & Hlg & Hfmt & HG & HF). unfold trellis_of, make_trellis. rewrite len_gens.
  fold (WW C). fold W. fold feedback_matrix. fold n.
  destruct (poly_array_spec (fmt C) W k k feedback_matrix Hfmt) as (fb & Efb & Hfb).
  { intros i j Hi Hj. apply feedback_ok; assumption. }
  destruct (poly_array_spec (fmt C) W k n (gens C) Hfmt) as (g & Eg & Hg).
  { intros i j Hi Hj. apply HG; assumption. }
  rewrite Efb, Eg. cbn [bind].
  assert (Hrows : trellis_rows (fun sr s => trellis_row (fun sr u => trellis_entry (memory C) k n W fb g sr s u) sr (seq 0 (2 ^ k))) garbage (seq 0 (2 ^ sum_mem (memory C)))
     = Ok (table out_f, table next_f)).
  { unfold table. apply (trellis_rows_spec _
      (fun s => map (fun u => out_f (Z.of_nat s) (Z.of_nat u)) (seq 0 (2 ^ k)))
      (fun s => map (fun u => next_f (Z.of_nat s) (Z.of_nat u)) (seq 0 (2 ^ k)))).
    intros sr s Hs. apply in_seq in Hs. apply trellis_row_spec. intros sr' u Hu. apply in_seq in Hu. apply trellis_entry_spec.
    - intros d i j Hd Hi Hj. rewrite Hfb by assumption. f_equal. apply feedback_ok; assumption.
    - intros d i j Hd Hi Hj. rewrite Hg by assumption. reflexivity.
    - rewrite <- pow2_nat. fold (MM C) in Hs. fold M in Hs. lia.
    - rewrite <- pow2_nat. lia. }
  rewrite Hrows. cbn [bind]. destruct (fmt C); [reflexivity|reflexivity|contradiction].
Qed.

Lemma table_length f : length (table f) = (2 ^ M)%nat. Proof. apply map_seq_length. Qed.

Lemma table_entry f s u : 0 <= s < 2 ^ Z.of_nat M -> 0 <= u < 2 ^ Z.of_nat k -> entry (table f) s u = f s u.
Proof.
  rewrite <- !pow2_nat. intros Hs Hu. unfold entry, table. rewrite nth_map_seq by lia. rewrite nth_map_seq by lia.
  rewrite !Z2Nat.id by lia. reflexivity.
Qed.

Lemma table_get_f f s u : 0 <= s < 2 ^ Z.of_nat M -> 0 <= u < 2 ^ Z.of_nat k -> table_get (table f) s u = Ok (f s u).
Proof.
  intros Hs Hu. rewrite <- (table_entry f s u Hs Hu). unfold table_get, entry.
  rewrite <- !pow2_nat in *. rewrite <- (Z2Nat.id s) at 1 by lia. rewrite (py_get_ok _ (Z.to_nat s) []) by (rewrite table_length; lia).
  cbn [bind]. rewrite <- (Z2Nat.id u) at 1 by lia. rewrite (py_get_ok _ (Z.to_nat u) (-1)); [reflexivity|].
  unfold table. rewrite nth_map_seq by lia. rewrite map_seq_length. lia.
Qed.

End Code.
