(* Termination of recursive encoders; the legacy recursive systematic trellis. *)
From Verif Require Import Base UtilModel UtilProofs TrellisModel TrellisSpec TrellisProofs FloatRate ConvProofs ConvCode.

Lemma firstn_S (l : list Z) : forall i, (i < length l)%nat -> firstn (S i) l = firstn i l ++ [nth i l 0].
Proof. induction l as [|u l IH]; intros i Hi; cbn [length] in Hi; [lia|]. destruct i as [|i]; [reflexivity|]. cbn [nth]. rewrite <- app_comm_cons || idtac. change (firstn (S (S i)) (u :: l)) with (u :: firstn (S i) l). change (firstn (S i) (u :: l)) with (u :: firstn i l). rewrite IH by lia. reflexivity. Qed.


(* the tail fed by termination='term' to a recursive encoder in state s *)
Definition tail_inputs (k M : nat) (s : Z) : list Z :=
  map (fun i => bitarray2dec (slice (rev (bits_msb M s)) (i * k) ((i + 1) * k))) (seq 0 M).

Lemma tail_range k M s : Forall (fun u => 0 <= u < 2 ^ Z.of_nat k) (tail_inputs k M s).
Proof.
  apply Forall_forall. intros u Hu. apply in_map_iff in Hu. destruct Hu as (i & <- & _).
  assert (Hb : bits (rev (bits_msb M s))). { apply Forall_rev. apply bits_msb_bits. }
  pose proof (bitarray2dec_range _ (bits_slice _ (i * k) ((i + 1) * k) Hb)) as H.
  pose proof (slice_len_le (rev (bits_msb M s)) (i * k) ((i + 1) * k)) as Hl.
  assert (2 ^ Z.of_nat (length (slice (rev (bits_msb M s)) (i * k) ((i + 1) * k))) <= 2 ^ Z.of_nat k) by (apply Z.pow_le_mono_r; lia). lia.
Qed.

Lemma conv_encode_rsc_term tr msg N : valid_trellis tr -> tr_rsc tr = true -> bits msg ->
  let k := tr_k tr in let n := tr_n tr in let M := tr_M tr in
  let nx := entry (tr_next tr) in let ou := entry (tr_out tr) in
  let us := symbols tr msg in let s := walk nx 0 us in
  let all := us ++ tail_inputs k M s in
  N = Z.to_nat (int_div_rate (Z.of_nat (length msg + k * M)) k n) ->
  ((length msg / k + M) * n <= N)%nat ->
  conv_encode_st msg tr Term None = Ok (bitstream n (emit nx ou 0 all) ++ repeat 0 (N - (length msg / k + M) * n), walk nx 0 all).
Proof.
  intros V Hr Hb. cbn zeta. intros HN Hle. unfold conv_encode_st. rewrite Hr. rewrite <- HN.
  assert (HM : 0 <= 0 < 2 ^ Z.of_nat (tr_M tr)) by (split; [lia|apply Z.pow_pos_nonneg; lia]).
  set (n := tr_n tr) in *. set (k := tr_k tr) in *. set (M := tr_M tr) in *. set (T := (length msg / k)%nat) in *.
  pose proof (enc_fold tr V (fun i => slice msg (i * k) ((i + 1) * k)) (seq 0 T) [] (repeat 0 N) 0 0%nat) as HF. cbn zeta in HF.
  rewrite seq_length, repeat_length in HF. cbn [app length] in HF.
  specialize (HF ltac:(intros; apply slice_in_range; exact Hb) HM eq_refl ltac:(fold n; lia)).
  change (map (fun i : nat => bitarray2dec (slice msg (i * k) ((i + 1) * k))) (seq 0 T)) with (symbols tr msg) in HF.
  rewrite skipn_repeat in HF. fold n in HF. rewrite HF. cbn [bind]. clear HF.
  set (s := walk (entry (tr_next tr)) 0 (symbols tr msg)).
  assert (Hs : 0 <= s < 2 ^ Z.of_nat M) by (apply walk_range; [exact V|exact HM|apply symbols_range; [exact Hb]]).
  unfold dec2bitarray. rewrite decimal2bitarray_ok by exact Hs. cbn [bind].
  pose proof (tail_range k M s) as Htr. rewrite Forall_forall in Htr.
  pose proof (enc_fold tr V (fun i => slice (rev (bits_msb M s)) (i * k) ((i + 1) * k)) (seq 0 M)
    (bitstream n (emit (entry (tr_next tr)) (entry (tr_out tr)) 0 (symbols tr msg))) (repeat 0 (N - T * n)) s T) as HF. cbn zeta in HF.
  rewrite seq_length, repeat_length in HF.
  specialize (HF ltac:(intros i Hi; apply Htr; unfold tail_inputs; apply in_map_iff; exists i; split; [reflexivity|exact Hi]) Hs).
  rewrite bitstream_length, emit_length, symbols_length in HF. fold k T n in HF.
  specialize (HF eq_refl ltac:(lia)). rewrite skipn_repeat in HF.
  replace (0 + T)%nat with T by lia. rewrite HF. cbn [bind]. clear HF.
  change (map (fun i : nat => bitarray2dec (slice (rev (bits_msb M s)) (i * k) ((i + 1) * k))) (seq 0 M)) with (tail_inputs k M s).
  rewrite emit_app, walk_app. fold s. rewrite bitstream_app.
  replace (N - T * n - M * n)%nat with (N - (T + M) * n)%nat by lia.
  rewrite app_assoc. rewrite (punct_all tr V); [reflexivity|].
  rewrite !app_length, repeat_length, !bitstream_length, !emit_length, symbols_length. unfold tail_inputs. rewrite map_seq_length. fold k T. lia.
Qed.

(* ---------------------------------------------------------------- one delay line with feedback *)
Section One.
Variable C : code.
Hypothesis WF : well_formed C.
Variables (m : nat) (F : list (list Z)).
Hypothesis Hmem : memory C = [m].
Hypothesis HF : fback C = Some F.
Local Notation nf := (next_f C).
Local Notation cellC := (cell (memory C)).
Local Notation f := (fcoef C 0 0).

Lemma kk1 : kk C = 1%nat. Proof. unfold kk. rewrite Hmem. reflexivity. Qed.
Lemma MMm : MM C = m. Proof. unfold MM. rewrite Hmem. cbn. lia. Qed.
Lemma memm : mem C 0 = m. Proof. unfold mem. rewrite Hmem. reflexivity. Qed.

Lemma cell1 s u d : cellC s u 0 d = if (d =? 0)%nat then Z.testbit u 0 else Z.testbit s (Z.of_nat m - Z.of_nat d).
Proof. unfold cell. rewrite Hmem. cbn [length]. unfold offset. cbn [firstn sum_mem fold_right]. destruct (d =? 0)%nat; f_equal; lia. Qed.

(* the feedback sum of the stored cells *)
Definition fsum (s : Z) : bool := xsum (map (fun d => cellC s 0 0 d && f d) (seq 1 m)).

Lemma next_cell s u d : (1 <= d <= m)%nat ->
  cellC (nf s u) 0 0 d = if (d =? 1)%nat then xorb (Z.testbit u 0 && f 0) (fsum s) else cellC s 0 0 (d - 1).
Proof.
  intros Hd. rewrite next_f_cell by (rewrite ?memm, ?kk1; lia || assumption). unfold newcell. destruct (Nat.eqb_spec d 1) as [->|Hne].
  - unfold line_sum. rewrite kk1. cbn [seq map]. rewrite memm. rewrite xsum_cons. cbn [xsum fold_right map]. rewrite xorb_false_r.
    fold (xsum (map (fun e => cellC s u 0 e && f e) (seq 1 m))).
    change (S m) with (1 + m)%nat. f_equal; [rewrite cell1; reflexivity|].
    unfold fsum. apply xsum_ext. intros e He. apply in_seq in He. rewrite (cell_u C s u 0) by lia. reflexivity.
  - apply cell_u. lia.
Qed.

Lemma shift_cells us : forall s d, (length us < d <= m)%nat -> cellC (walk nf s us) 0 0 d = cellC s 0 0 (d - length us).
Proof.
  induction us as [|u us IH]; intros s d Hd; cbn [length walk] in *; [rewrite Nat.sub_0_r; reflexivity|].
  rewrite IH by lia. rewrite next_cell by lia. replace (d - length us =? 1)%nat with false by lia. f_equal. lia.
Qed.

(* the cells after us ++ ws: cell 1 + |ws| is cell 1 after us *)
Lemma cell_after us ws s : (1 + length ws <= m)%nat -> cellC (walk nf s (us ++ ws)) 0 0 (1 + length ws) = cellC (walk nf s us) 0 0 1.
Proof. intros H. rewrite walk_app, shift_cells by lia. f_equal. lia. Qed.

Lemma tail_bit s i : (i < m)%nat -> nth i (tail_inputs 1 m s) 0 = Z.b2z (cellC s 0 0 (m - i)).
Proof.
  intros Hi. unfold tail_inputs. rewrite nth_map_seq by exact Hi. set (r := rev (bits_msb m s)).
  assert (Hl : length r = m) by (unfold r; rewrite rev_length; apply bits_msb_length).
  assert (Es : slice r (i * 1) ((i + 1) * 1) = [nth i r 0]).
  { apply nth_ext_Z; [rewrite slice_length by lia; cbn; lia|]. intros j Hj. rewrite slice_length in Hj by lia.
    assert (j = 0)%nat by lia. subst j. rewrite slice_nth by lia. cbn [nth]. f_equal. lia. }
  rewrite Es. unfold r. rewrite rev_nth by (rewrite bits_msb_length; exact Hi). rewrite bits_msb_length, bits_msb_nth by lia.
  rewrite bitarray2dec_cons. cbn [length]. rewrite Z.pow_0_r. change (bitarray2dec []) with 0. rewrite Z.mul_1_r, Z.add_0_r. f_equal.
  rewrite cell1. replace (m - i =? 0)%nat with false by lia. f_equal. lia.
Qed.

(* feedback 1 + D^m: the tail empties the register *)
Lemma tail_ok s : 0 <= s < 2 ^ Z.of_nat m -> f 0 = true -> (1 <= m)%nat -> f m = true -> (forall d, (1 <= d < m)%nat -> f d = false) ->
  walk nf s (tail_inputs 1 m s) = 0.
Proof.
  intros Hs H0 Hm Hfm Hfd. set (us := tail_inputs 1 m s).
  assert (Hl : length us = m) by apply map_seq_length.
  assert (Hinv : forall i, (i <= m)%nat -> forall d, (1 <= d <= m)%nat -> cellC (walk nf s (firstn i us)) 0 0 d = if (d <=? i)%nat then false else cellC s 0 0 (d - i)).
  { induction i as [|i IH]; intros Hi d Hd.
    - cbn [firstn walk]. replace (d <=? 0)%nat with false by lia. rewrite Nat.sub_0_r. reflexivity.
    - assert (Ef : firstn (S i) us = firstn i us ++ [nth i us 0]).
      { apply firstn_S. lia. }
      rewrite Ef, walk_app. cbn [walk]. rewrite next_cell by exact Hd. specialize (IH ltac:(lia)).
      destruct (Nat.eqb_spec d 1) as [->|Hne].
      + replace (1 <=? S i)%nat with true by lia.
        assert (Hsum : fsum (walk nf s (firstn i us)) = cellC s 0 0 (m - i)).
        { unfold fsum. replace (seq 1 m) with (seq 1 (m - 1) ++ [m]) by (replace m with (m - 1 + 1)%nat at 3 by lia; rewrite seq_app; do 2 f_equal; cbn; f_equal; lia).
          rewrite map_app, xsum_app. rewrite xsum_false by (intros d Hd'; apply in_seq in Hd'; rewrite Hfd by lia; apply andb_false_r).
          cbn [map xsum fold_right]. rewrite Hfm, andb_true_r, xorb_false_r, xorb_false_l. rewrite IH by lia. replace (m <=? i)%nat with false by lia. reflexivity. }
        rewrite Hsum. unfold us. rewrite tail_bit by lia. rewrite H0, andb_true_r.
        destruct (cellC s 0 0 (m - i)); reflexivity.
      + rewrite IH by lia. destruct (Nat.leb_spec (d - 1) i); destruct (Nat.leb_spec d (S i)); try lia; try reflexivity; f_equal; lia. }
  specialize (Hinv m (le_n m)). rewrite firstn_all2 in Hinv by lia.
  apply (states_ext C); [apply walk_nf_range; rewrite MMm; exact Hs|apply zero_range|]. intros c d Hc Hd.
  rewrite kk1 in Hc. assert (c = 0)%nat by lia. subst c. rewrite memm in Hd. rewrite Hinv by exact Hd.
  replace (d <=? m)%nat with true by lia. symmetry. apply cell_0.
Qed.

(* every sequence of register contents can be forced *)
Lemma force (a : nat -> bool) : f 0 = true -> (1 <= m)%nat -> forall t, exists us, length us = t /\ Forall (fun u => 0 <= u < 2) us /\
  forall i, (i < t)%nat -> cellC (walk nf 0 (firstn (S i) us)) 0 0 1 = a i.
Proof.
  intros H0 Hm. induction t as [|t (us & Hl & Hr & IH)]; [exists []; repeat split; [constructor|lia]|].
  exists (us ++ [Z.b2z (xorb (a t) (fsum (walk nf 0 us)))]). rewrite app_length, Hl. cbn [length]. split; [lia|]. split.
  - apply Forall_app. split; [exact Hr|]. constructor; [|constructor]. destruct (xorb _ _); cbn; lia.
  - intros i Hi. destruct (Nat.eq_dec i t) as [->|Hne].
    + rewrite firstn_all2 by (rewrite app_length; cbn; lia). rewrite walk_app. cbn [walk]. rewrite next_cell by lia. cbn [Nat.eqb].
      rewrite H0, andb_true_r. replace (Z.testbit (Z.b2z (xorb (a t) (fsum (walk nf 0 us)))) 0) with (xorb (a t) (fsum (walk nf 0 us))) by (destruct (xorb _ _); reflexivity).
      destruct (a t), (fsum _); reflexivity.
    + rewrite firstn_app. replace (S i - length us)%nat with 0%nat by lia. cbn [firstn]. rewrite app_nil_r. apply IH. lia.
Qed.

Lemma reach (a : nat -> bool) : f 0 = true -> (1 <= m)%nat -> exists us, length us = m /\ Forall (fun u => 0 <= u < 2) us /\
  forall d, (1 <= d <= m)%nat -> cellC (walk nf 0 us) 0 0 d = a d.
Proof.
  intros H0 Hm. destruct (force (fun i => a (m - i)%nat) H0 Hm m) as (us & Hl & Hr & H). exists us. split; [exact Hl|]. split; [exact Hr|].
  intros d Hd. pose proof (firstn_skipn (S (m - d)) us) as Eu.
  assert (Hw : length (skipn (S (m - d)) us) = (d - 1)%nat) by (rewrite skipn_length; lia).
  pose proof (cell_after (firstn (S (m - d)) us) (skipn (S (m - d)) us) 0 ltac:(lia)) as Ec. rewrite Eu, Hw in Ec.
  replace (1 + (d - 1))%nat with d in Ec by lia. rewrite Ec, H by lia. f_equal. lia.
Qed.

(* if the tail empties the register from every reachable state, the feedback is 1 + D^m *)
Lemma tail_only_bounded : f 0 = true -> (1 <= m)%nat ->
  (forall us, (length us <= m)%nat -> Forall (fun u => 0 <= u < 2) us -> let s := walk nf 0 us in walk nf s (tail_inputs 1 m s) = 0) ->
  f m = true /\ forall d, (1 <= d < m)%nat -> f d = false.
Proof.
  intros H0 Hm H.
  assert (Hj : forall j, (1 <= j <= m)%nat -> f j = (j =? m)%nat).
  { intros j Hj. destruct (reach (fun d => (d =? j)%nat) H0 Hm) as (us & Hus & Hr & Hc). specialize (H us ltac:(lia) Hr). cbn zeta in H. set (s := walk nf 0 us) in *.
    assert (Hlt : length (tail_inputs 1 m s) = m) by apply map_seq_length.
    destruct (tail_inputs 1 m s) as [|u0 rest] eqn:Et; [cbn in Hlt; lia|]. cbn [length] in Hlt.
    pose proof (cell_after [u0] rest s ltac:(lia)) as Ec. cbn [app] in Ec. rewrite H in Ec. rewrite cell_0 in Ec. cbn [walk] in Ec.
    rewrite next_cell in Ec by lia. cbn [Nat.eqb] in Ec. rewrite H0, andb_true_r in Ec.
    pose proof (tail_bit s 0 ltac:(lia)) as Eb. rewrite Et in Eb. cbn [nth] in Eb. rewrite Nat.sub_0_r in Eb. rewrite Hc in Eb by lia.
    assert (Hfs : fsum s = f j).
    { unfold fsum. rewrite <- seq_shift, map_map. rewrite (xsum_single _ m (j - 1)); [|lia|].
      - replace (S (j - 1)) with j by lia. rewrite Hc by lia. rewrite Nat.eqb_refl. reflexivity.
      - intros i Hi Hne. rewrite Hc by lia. replace (S i =? j)%nat with false by lia. reflexivity. }
    rewrite Hfs, Eb in Ec. rewrite Nat.eqb_sym. destruct (m =? j)%nat, (f j); cbn in Ec; congruence. }
  split; [rewrite Hj by lia; apply Nat.eqb_refl|]. intros d Hd. rewrite Hj by lia. lia.
Qed.

End One.

