(* The turbo encoder. *)
From Coq Require Import Reals Lra.
From Verif Require Import Base UtilModel UtilProofs TrellisModel TrellisSpec FloatRate ConvProofs ConvMore ConvTop SeqModel SeqProofs TurboModel TurboSpec.

Lemma firstn_repeat_min {A} (x : A) a : forall b, firstn a (repeat x b) = repeat x (Nat.min a b).
Proof. induction a as [|a IH]; intros [|b]; cbn [Nat.min repeat firstn]; try reflexivity. f_equal. apply IH. Qed.

Lemma every_second_cons2 {A} (d : A) off a b l : (off <= 1)%nat -> every_second d off (a :: b :: l) = nth off [a; b] d :: every_second d off l.
Proof.
  intros Ho. unfold every_second. cbn [length]. replace (S (S (length l)) + 1 - off)%nat with (length l + 1 - off + 1 * 2)%nat by lia.
  rewrite Nat.div_add by lia. rewrite Nat.add_1_r. cbn [seq map]. f_equal.
  - destruct off as [|[|off]]; [reflexivity|reflexivity|lia].
  - rewrite <- seq_shift, map_map. apply map_ext. intros i. replace (2 * S i + off)%nat with (S (S (2 * i + off))) by lia. reflexivity.
Qed.
Lemma every_second_nil {A} (d : A) off : (off <= 1)%nat -> every_second d off [] = [].
Proof. intros H. destruct off as [|[|off]]; [reflexivity|reflexivity|lia]. Qed.

Lemma every_second_zeros off m : (off <= 1)%nat -> every_second 0 off (repeat 0 (2 * m)) = repeat 0 m.
Proof.
  intros Ho. induction m as [|m IH]; [apply every_second_nil; exact Ho|]. replace (2 * S m)%nat with (S (S (2 * m))) by lia. cbn [repeat].
  rewrite every_second_cons2 by exact Ho. rewrite IH. f_equal. destruct off as [|[|off]]; [reflexivity|reflexivity|lia].
Qed.

Lemma bits_msb_2 w : 0 <= w < 4 -> bits_msb 2 w = [w / 2; w mod 2].
Proof. intros H. assert (w = 0 \/ w = 1 \/ w = 2 \/ w = 3) as [->|[->|[->| ->]]] by lia; reflexivity. Qed.

Lemma every_second_stream off ws m : (off <= 1)%nat -> Forall (fun w => 0 <= w < 4) ws ->
  every_second 0 off (bitstream 2 ws ++ repeat 0 (2 * m)) = map (fun w => nth off [w / 2; w mod 2] 0) ws ++ repeat 0 m.
Proof.
  intros Ho H. induction H as [|w ws Hw H IH]; [cbn [bitstream map concat app]; apply every_second_zeros; exact Ho|].
  unfold bitstream. cbn [map concat]. rewrite bits_msb_2 by exact Hw. cbn [app]. rewrite every_second_cons2 by exact Ho. f_equal. exact IH.
Qed.

Lemma keep_odd m : filter (keep [0; 1]) (seq 0 (2 * m)) = map (fun i => 2 * i + 1)%nat (seq 0 m).
Proof.
  induction m as [|m IH]; [reflexivity|]. replace (2 * S m)%nat with (2 * m + 2)%nat by lia. rewrite seq_app, filter_app, IH.
  rewrite <- (Nat.add_1_r m). rewrite seq_app, map_app. f_equal. cbn [seq filter map]. unfold keep. cbn [length].
  replace ((0 + 2 * m) mod 2)%nat with 0%nat. 2:{ symmetry. rewrite Nat.add_0_l, Nat.mul_comm. apply Nat.mod_mul. lia. }
  replace (S (0 + 2 * m) mod 2)%nat with 1%nat. 2:{ symmetry. replace (S (0 + 2 * m))%nat with (1 + m * 2)%nat by lia. rewrite Nat.mod_add by lia. reflexivity. }
  cbn [nth]. cbn. f_equal. lia.
Qed.

Lemma punctured_odd l m : length l = (2 * m)%nat -> punctured [0; 1] l = every_second 0 1 l ++ repeat 0 m.
Proof.
  intros Hl. unfold punctured. rewrite Hl, keep_odd, !map_map, map_length, seq_length. f_equal.
  - unfold every_second. rewrite Hl. replace (2 * m + 1 - 1)%nat with (m * 2)%nat by lia. rewrite Nat.div_mul by lia. reflexivity.
  - f_equal. lia.
Qed.

Lemma words_emit tr us : forall s, words tr s us = map (fun w => (w / 2, w mod 2)) (emit (entry (tr_next tr)) (entry (tr_out tr)) s us).
Proof. induction us as [|u us IH]; intros s; [reflexivity|]. cbn [words emit map]. f_equal. apply IH. Qed.
Lemma words_length tr us : forall s, length (words tr s us) = length us.
Proof. intros s. rewrite words_emit, map_length. apply emit_length. Qed.
Lemma words_app tr us : forall s vs, words tr s (us ++ vs) = words tr s us ++ words tr (walk (entry (tr_next tr)) s us) vs.
Proof. induction us as [|u us IH]; intros s vs; [reflexivity|]. cbn [app words walk]. f_equal. apply IH. Qed.

Lemma bits_inputs us : bits us -> Forall (fun u => 0 <= u < 2) us.
Proof. intros H. apply Forall_forall. intros x Hx. unfold bits in H. rewrite Forall_forall in H. specialize (H x Hx). unfold is_bit in H. lia. Qed.

Lemma emit_range tr : half_rate tr -> forall us s, 0 <= s < 2 ^ Z.of_nat (tr_M tr) -> Forall (fun u => 0 <= u < 2) us ->
  Forall (fun w => 0 <= w < 4) (emit (entry (tr_next tr)) (entry (tr_out tr)) s us).
Proof.
  intros (Hk & Hn & _ & _ & V). rewrite Hk, Hn in V. induction us as [|u us IH]; intros s Hs Hu; [constructor|]. inversion Hu; subst. cbn [emit].
  destruct (V s u Hs ltac:(cbn; lia)) as (_ & Ha & _ & Hc). constructor; [cbn in Hc; lia|]. apply IH; assumption.
Qed.

Lemma systematic_words tr : half_rate tr -> systematic tr -> forall us s, 0 <= s < 2 ^ Z.of_nat (tr_M tr) -> Forall (fun u => 0 <= u < 2) us ->
  map fst (words tr s us) = us.
Proof.
  intros (Hk & Hn & _ & _ & V) Hsys. rewrite Hk, Hn in V. induction us as [|u us IH]; intros s Hs Hu; [reflexivity|]. inversion Hu; subst. cbn [words map fst].
  destruct (V s u Hs ltac:(cbn; lia)) as (_ & Ha & _ & Hc). f_equal; [apply Hsys; assumption|]. apply IH; assumption.
Qed.

Lemma zero_state tr : 0 <= 0 < 2 ^ Z.of_nat (tr_M tr).
Proof. split; [lia|apply Z.pow_pos_nonneg; lia]. Qed.

Lemma fed_bits tr msg : bits msg -> bits (fed tr msg).
Proof. intros H. unfold fed. destruct (tr_rsc tr); [exact H|]. apply bits_app. split; [exact H|apply bits_repeat0]. Qed.
Lemma fed_length tr msg : length (fed tr msg) = (length msg + if tr_rsc tr then 0 else tr_M tr)%nat.
Proof. unfold fed. destruct (tr_rsc tr); [lia|]. rewrite app_length, repeat_length. reflexivity. Qed.

Lemma encode_half tr msg : half_rate tr -> bits msg -> Z.of_nat (length msg + tr_M tr) * 2 < 2 ^ 49 ->
  exists s, conv_encode_st msg tr OtherTermination None =
    Ok (bitstream 2 (emit (entry (tr_next tr)) (entry (tr_out tr)) 0 (fed tr msg)) ++ repeat 0 (2 * (length msg + tr_M tr - length (fed tr msg))), s).
Proof.
  intros (Hk & Hn & V) Hb Hsz. eexists.
  assert (HN : forall x : nat, (x <= length msg + tr_M tr)%nat -> Z.to_nat (int_div_rate (Z.of_nat x) 1 2) = (2 * x)%nat).
  { intros x Hx. pose proof (int_div_rate_exact 1 2 (Z.of_nat x) ltac:(lia) ltac:(lia) eq_refl ltac:(lia)) as H.
    rewrite Z.mul_1_l in H. rewrite H by lia. lia. }
  pose proof (conv_encode_plain tr V msg (fed tr msg) (2 * (length msg + tr_M tr)) OtherTermination (fed_bits tr msg Hb)) as HP.
  rewrite Hk, Hn in HP. rewrite Nat.div_1_r in HP. rewrite HP.
  - rewrite (sym1 tr (fed tr msg) Hk (fed_bits tr msg Hb)). do 2 f_equal. f_equal. f_equal. pose proof (fed_length tr msg). lia.
  - unfold fed. destruct (tr_rsc tr); [left; split; [reflexivity|split; [reflexivity|discriminate]]|right]. split; [reflexivity|]. rewrite Nat.mod_1_r, Nat.add_0_r. reflexivity.
  - unfold fed. destruct (tr_rsc tr); [|rewrite app_length, repeat_length]; rewrite HN; lia.
  - rewrite fed_length. destruct (tr_rsc tr); lia.
Qed.

Lemma nth_map_pair (ws : list Z) off : (off <= 1)%nat -> map (fun w => nth off [w / 2; w mod 2] 0) ws = map (if (off =? 0)%nat then fst else snd) (map (fun w => (w / 2, w mod 2)) ws).
Proof. intros H. rewrite map_map. apply map_ext. intros w. destruct off as [|[|off]]; [reflexivity|reflexivity|lia]. Qed.

Lemma interlv_perm_ok {A} (d : A) p (x : list A) : (forall i, In i p -> (i < length x)%nat) -> interlv p x = Ok (map (fun i => nth i x d) p).
Proof.
  intros H. unfold interlv. apply mapM_Ok. intros i Hi. specialize (H i Hi). rewrite (nth_error_nth' x d H). reflexivity.
Qed.

Lemma turbo_encode_spec tr1 tr2 p msg : half_rate tr1 -> half_rate tr2 -> systematic tr1 -> (1 <= tr_M tr1)%nat -> (1 <= tr_M tr2)%nat ->
  bits msg -> is_perm (length msg) p ->
  Z.of_nat (length msg + tr_M tr1) * 2 < 2 ^ 49 -> Z.of_nat (length msg + tr_M tr2) * 2 < 2 ^ 49 ->
  let pmsg := map (fun i => nth i msg 0) p in
  turbo_encode msg tr1 tr2 p = Ok (msg, parity tr1 msg, parity tr2 (fed tr2 pmsg) ++ repeat 0 (2 * length msg + tr_M tr2 - length (fed tr2 pmsg))).
Proof.
  intros H1 H2 Hsys HM1 HM2 Hb Hp Hs1 Hs2 pmsg. unfold turbo_encode.
  destruct (encode_half tr1 msg H1 Hb Hs1) as [s1 E1]. unfold conv_encode. rewrite E1. cbn [bind fst]. clear E1.
  pose proof (emit_range tr1 H1 (fed tr1 msg) 0 (zero_state tr1) (bits_inputs _ (fed_bits tr1 msg Hb))) as Hr1.
  rewrite !(every_second_stream) by (try lia; exact Hr1). rewrite !nth_map_pair by lia. cbn [Nat.eqb]. rewrite <- words_emit.
  assert (Hpre : exists wt, words tr1 0 (fed tr1 msg) = words tr1 0 msg ++ wt).
  { unfold fed. destruct (tr_rsc tr1); [exists []; rewrite app_nil_r; reflexivity|]. rewrite words_app. eexists. reflexivity. }
  assert (Hlen : length (words tr1 0 (fed tr1 msg)) = length (fed tr1 msg)) by apply words_length.
  destruct Hpre as [wt Hw]. rewrite Hw in *. rewrite !map_app. rewrite (systematic_words tr1 H1 Hsys msg 0 (zero_state tr1) (bits_inputs _ Hb)).
  destruct Hp as (Hpl & Hnd & Hin).
  rewrite <- !app_assoc.
  rewrite (interlv_perm_ok 0) by (intros i Hi; rewrite !app_length; specialize (Hin i Hi); lia). cbn [bind].
  replace (map (fun i => nth i (msg ++ map fst wt ++ repeat 0 (length msg + tr_M tr1 - length (fed tr1 msg))) 0) p) with pmsg.
  2:{ apply map_ext_in. intros i Hi. symmetry. apply app_nth1. apply Hin. exact Hi. }
  assert (Hpb : bits pmsg). { apply Forall_forall. intros x Hx. apply in_map_iff in Hx. destruct Hx as (i & <- & _). apply bits_nth. exact Hb. }
  assert (Hpml : length pmsg = length msg) by (unfold pmsg; rewrite map_length; exact Hpl).
  destruct (encode_half tr2 pmsg H2 Hpb ltac:(rewrite Hpml; exact Hs2)) as [s2 E2].
  destruct H2 as (Hk2 & Hn2 & V2). rewrite (conv_encode_punct tr2 pmsg _ [0; 1] _ _ ltac:(discriminate) V2 E2). cbn [bind fst]. clear E2.
  pose proof (fed_length tr2 pmsg) as Hfl2. pose proof (fed_length tr1 msg) as Hfl1.
  assert (Hf2 : (length (fed tr2 pmsg) <= length msg + tr_M tr2)%nat) by (rewrite Hfl2; destruct (tr_rsc tr2); lia).
  assert (Hf1 : (length (fed tr1 msg) <= length msg + tr_M tr1)%nat) by (rewrite Hfl1; destruct (tr_rsc tr1); lia).
  rewrite (punctured_odd _ (length msg + tr_M tr2)) by (rewrite app_length, bitstream_length, emit_length, repeat_length; lia).
  pose proof (emit_range tr2 (conj Hk2 (conj Hn2 V2)) (fed tr2 pmsg) 0 (zero_state tr2) (bits_inputs _ (fed_bits tr2 pmsg Hpb))) as Hr2.
  rewrite every_second_stream by (try lia; exact Hr2). rewrite nth_map_pair by lia. cbn [Nat.eqb]. rewrite <- words_emit. fold (parity tr2 (fed tr2 pmsg)).
  assert (Hpl2 : length (parity tr2 (fed tr2 pmsg)) = length (fed tr2 pmsg)) by (unfold parity; rewrite map_length; apply words_length).
  assert (Hwt : (length wt + length msg = length (fed tr1 msg))%nat) by (rewrite <- Hlen, app_length, words_length; lia).
  unfold but_last. replace (tr_M tr1 =? 0)%nat with false by (symmetry; apply Nat.eqb_neq; lia). replace (tr_M tr2 =? 0)%nat with false by (symmetry; apply Nat.eqb_neq; lia).
  assert (Hcut : forall (a b : list Z) m, length b = m -> firstn (length (a ++ b) - m) (a ++ b) = a).
  { intros a b m Hm. rewrite app_length. replace (length a + length b - m)%nat with (length a + 0)%nat by lia. rewrite firstn_app_2. rewrite firstn_O. apply app_nil_r. }
  rewrite Hcut by (rewrite app_length, map_length, repeat_length; lia).
  rewrite Hcut by (rewrite app_length, map_length, repeat_length; lia). f_equal. f_equal.
  rewrite <- app_assoc. rewrite <- repeat_app. 
  rewrite app_length, repeat_length, Hpl2.
  rewrite firstn_app. rewrite Hpl2. rewrite firstn_all2 by (rewrite Hpl2; rewrite Hpml; lia). f_equal.
  rewrite Hpml.
  rewrite firstn_repeat_min. f_equal. lia.
Qed.
