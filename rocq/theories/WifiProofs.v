(* Proofs about the 802.11 chain. *)
From Coq Require Import Reals Lra.
From Verif Require Import Base UtilModel UtilProofs TrellisModel TrellisSpec TrellisProofs FloatRate ConvProofs ConvCode ConvMore ConvTop
  ViterbiModel ViterbiReal ViterbiSpec ViterbiProofs ViterbiArray ViterbiRun ViterbiCore ViterbiInst ViterbiTop ViterbiErase
  LinksModel LinksSpec LinksProofs LinksTop PunctModel PunctProofs WifiModel.
Local Open Scope Z_scope.

(* a rational close to the integer N is rounded to N *)
Definition close (a b N : Z) : Prop := Z.abs (a - N * b) * 2 ^ 54 < N * b \/ (N * b <= a /\ (a - N * b) * (2 ^ 54 - 1) <= N * b).
Lemma rnd64_near a b N : 0 < a -> 0 < b -> 0 < N < 2 ^ 52 -> close a b N ->
  let '(m, e) := rnd64 a b in e <= 0 /\ m = N * 2 ^ (- e).
Proof.
  intros Ha Hb HN H. unfold rnd64. pose proof (rnd64_exp_spec a b Ha Hb) as Hs. cbn zeta in Hs. set (e := rnd64_exp a b) in *. destruct Hs as (Hden & Hlo & Hhi).
  assert (Ha2 : a < 2 ^ 52 * (b * 2)).
  { unfold close in H. change (2 ^ 54) with 18014398509481984 in *. change (2 ^ 52) with 4503599627370496 in *. assert (N * b < 4503599627370496 * b) by nia. lia. }
  assert (He : e <= 0).
  { destruct (Z.le_gt_cases e 0) as [L|L]; [exact L|]. exfalso. rewrite (Z.max_l e 0), (Z.max_r (- e) 0) in * by lia. rewrite Z.pow_0_r, Z.mul_1_r in *.
    assert (2 <= 2 ^ e) by (replace e with (1 + (e - 1)) by lia; rewrite Z.pow_add_r by lia; assert (0 < 2 ^ (e - 1)) by (apply Z.pow_pos_nonneg; lia); lia).
    assert (2 ^ 52 * (b * 2) <= a) by nia. lia. }
  rewrite (Z.max_r e 0), (Z.max_l (- e) 0) in * by lia. rewrite Z.pow_0_r, Z.mul_1_r in *. split; [exact He|].
  set (P := 2 ^ (- e)) in *. assert (HP : 0 < P) by (apply Z.pow_pos_nonneg; lia).
  destruct (round_half_even_spec (a * P) b Hb) as (R1 & R2 & _). set (m := round_half_even (a * P) b) in *.
  set (T := N * P) in *.
  assert (Hhalf : 2 * Z.abs (a * P - T * b) < b).
  { destruct H as [H|[H1 H2]].
    - assert (Hd : Z.abs (a * P - T * b) * 2 ^ 54 < T * b).
      { unfold T. replace (a * P - N * P * b) with ((a - N * b) * P) by ring. rewrite Z.abs_mul, (Z.abs_eq P) by lia. nia. }
      assert (HT : T <= 2 ^ 53).
      { destruct (Z.le_gt_cases T (2 ^ 53)) as [L|L]; [exact L|]. exfalso. assert (T * b - a * P <= Z.abs (a * P - T * b)) by lia.
        assert ((T * b - a * P) * 2 ^ 54 < T * b) by nia. assert (a * P <= 2 ^ 53 * b) by lia. change (2 ^ 54) with 18014398509481984 in *. change (2 ^ 53) with 9007199254740992 in *. nia. }
      assert (T * b <= 2 ^ 53 * b) by nia. change (2 ^ 54) with (2 * 2 ^ 53) in Hd. change (2 ^ 53) with 9007199254740992 in *. nia.
    - assert (Hge : T * b <= a * P) by (unfold T; nia). assert (Hd : (a * P - T * b) * (2 ^ 54 - 1) <= T * b) by (unfold T; nia).
      assert (HT : T < 2 ^ 53) by nia. change (2 ^ 54) with (2 * 2 ^ 53) in Hd. change (2 ^ 53) with 9007199254740992 in *. rewrite Z.abs_eq by lia.
      assert (T * b <= 9007199254740991 * b) by nia. lia. }
  assert (Z.abs (m - T) * b < b); [|nia]. rewrite <- (Z.abs_eq b) at 1 by lia. rewrite <- Z.abs_mul. lia.
Qed.
Lemma rnd64_near_ceil a b N : 0 < a -> 0 < b -> 0 < N < 2 ^ 52 -> close a b N -> ceil_of_float (rnd64 a b) = N.
Proof.
  intros Ha Hb HN H. pose proof (rnd64_near a b N Ha Hb HN H) as R. destruct (rnd64 a b) as [m e]. destruct R as [He ->]. unfold ceil_of_float.
  rewrite (Z.max_r e 0), (Z.max_l (- e) 0) by lia. rewrite Z.pow_0_r, Z.mul_1_r. assert (0 < 2 ^ (- e)) by (apply Z.pow_pos_nonneg; lia).
  rewrite <- Z.mul_opp_l, Z.div_mul by lia. lia.
Qed.
Lemma coded_len_exact len p q N : 0 < N -> N < 2 ^ 52 -> 0 < q -> len * p = N * q -> wifi_coded_len len p q = 2 * N.
Proof.
  intros HN HN2 Hq E. unfold wifi_coded_len. rewrite E. pose proof (rnd64_near (N * q) q N ltac:(nia) Hq ltac:(lia)) as R. specialize (R ltac:(left; rewrite Z.sub_diag; cbn [Z.abs Z.mul]; nia)).
  destruct (rnd64 (N * q) q) as [m e]. destruct R as [He ->]. unfold ceil_of_float. destruct (Z.eq_dec e 0) as [->|He0].
  - change (Z.max (0 + 1) 0) with 1. change (Z.max (- (0 + 1)) 0) with 0. change (2 ^ 1) with 2. change (2 ^ 0) with 1. change (2 ^ (- 0)) with 1. rewrite Z.div_1_r. lia.
  - rewrite (Z.max_r (e + 1) 0), (Z.max_l (- (e + 1)) 0) by lia. rewrite Z.pow_0_r, Z.mul_1_r. replace (- e) with (1 + - (e + 1)) by lia. rewrite Z.pow_add_r by lia. change (2 ^ 1) with 2.
    assert (0 < 2 ^ (- (e + 1))) by (apply Z.pow_pos_nonneg; lia). replace (- (N * (2 * 2 ^ (- (e + 1))))) with ((- (2 * N)) * 2 ^ (- (e + 1))) by ring. rewrite Z.div_mul by lia. lia.
Qed.
Lemma received_len_exact p q len N : In (p, q) [(1, 2); (2, 3); (3, 4); (5, 6)] -> 0 < N < 2 ^ 50 -> len * q = N * p -> received_len p q len = N.
Proof.
  intros Hin HN E. unfold received_len. assert (Hl : 0 < len) by (destruct Hin as [H|[H|[H|[H|[]]]]]; injection H as <- <-; lia).
  destruct Hin as [H|[H|[H|[H|[]]]]]; injection H as <- <-;
    (match goal with |- context [rnd64 ?a ?b] => let r := eval vm_compute in (rnd64 a b) in change (rnd64 a b) with r end); cbv iota beta zeta;
    (match goal with |- context [len * ?x] => let r := eval vm_compute in x in change x with r end);
    (match goal with |- ceil_of_float (rnd64 _ ?x) = _ => let r := eval vm_compute in x in change x with r end);
    change (2 ^ 50) with 1125899906842624 in HN;
    (apply rnd64_near_ceil; [lia|lia|change (2 ^ 52) with 4503599627370496; lia|unfold close; change (2 ^ 54) with 18014398509481984; lia]).
Qed.
