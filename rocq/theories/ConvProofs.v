(* Proofs about conv_encode, for any trellis with valid tables. *)
From Verif Require Import Base UtilModel UtilProofs TrellisModel TrellisSpec TrellisProofs FloatRate.

Lemma skipn_skipn {A} a : forall b (l : list A), skipn a (skipn b l) = skipn (a + b) l.
Proof.
  intros b l. revert l. induction b as [|b IH]; intros l; [rewrite Nat.add_0_r; reflexivity|]. rewrite Nat.add_succ_r.
  destruct l as [|x l]; [destruct a; reflexivity|]. cbn [skipn]. apply IH.
Qed.
Lemma skipn_repeat {A} (x : A) a : forall b, skipn a (repeat x b) = repeat x (b - a).
Proof. induction a as [|a IH]; intros [|b]; try reflexivity. cbn [repeat skipn Nat.sub]. apply IH. Qed.

(* every table entry exists and is in range *)
Definition valid_trellis (tr : Trellis) : Prop :=
  (1 <= tr_k tr)%nat /\ (1 <= tr_n tr)%nat /\
  forall s u, 0 <= s < 2 ^ Z.of_nat (tr_M tr) -> 0 <= u < 2 ^ Z.of_nat (tr_k tr) ->
    table_get (tr_next tr) s u = Ok (entry (tr_next tr) s u) /\ 0 <= entry (tr_next tr) s u < 2 ^ Z.of_nat (tr_M tr) /\
    table_get (tr_out tr) s u = Ok (entry (tr_out tr) s u) /\ 0 <= entry (tr_out tr) s u < 2 ^ Z.of_nat (tr_n tr).

(* state reached from s by the inputs us, and the output words emitted on the way *)
Fixpoint walk (next : Z -> Z -> Z) (s : Z) (us : list Z) : Z :=
  match us with [] => s | u :: us => walk next (next s u) us end.
Fixpoint emit (next out : Z -> Z -> Z) (s : Z) (us : list Z) : list Z :=
  match us with [] => [] | u :: us => out s u :: emit next out (next s u) us end.

Lemma walk_app next us : forall s vs, walk next s (us ++ vs) = walk next (walk next s us) vs.
Proof. induction us as [|u us IH]; intros s vs; [reflexivity|apply IH]. Qed.
Lemma emit_app next out us : forall s vs, emit next out s (us ++ vs) = emit next out s us ++ emit next out (walk next s us) vs.
Proof. induction us as [|u us IH]; intros s vs; [reflexivity|]. cbn [app emit walk]. f_equal. apply IH. Qed.
Lemma emit_length next out us : forall s, length (emit next out s us) = length us.
Proof. induction us as [|u us IH]; intros s; [reflexivity|]. cbn [emit length]. f_equal. apply IH. Qed.
Lemma emit_nth next out us : forall s t, (t < length us)%nat -> nth t (emit next out s us) 0 = out (walk next s (firstn t us)) (nth t us 0).
Proof.
  induction us as [|u us IH]; intros s t Ht; cbn [length] in Ht; [lia|]. destruct t as [|t]; [reflexivity|].
  cbn [emit nth firstn walk]. apply IH. lia.
Qed.

(* the words as one bit stream *)
Definition bitstream (n : nat) (ws : list Z) : list Z := concat (map (bits_msb n) ws).
Lemma bitstream_length n ws : length (bitstream n ws) = (length ws * n)%nat.
Proof. unfold bitstream. induction ws as [|w ws IH]; [reflexivity|]. cbn [map concat length]. rewrite app_length, bits_msb_length, IH. lia. Qed.
Lemma bitstream_app n ws ws' : bitstream n (ws ++ ws') = bitstream n ws ++ bitstream n ws'.
Proof. unfold bitstream. rewrite map_app, concat_app. reflexivity. Qed.
Lemma bitstream_nth n ws t j d : (t < length ws)%nat -> (j < n)%nat ->
  nth (t * n + j) (bitstream n ws) 0 = Z.b2z (Z.testbit (nth t ws d) (Z.of_nat n - 1 - Z.of_nat j)).
Proof.
  revert t. induction ws as [|w ws IH]; intros t Ht Hj; cbn [length] in Ht; [lia|]. unfold bitstream. cbn [map concat]. fold (bitstream n ws).
  destruct t as [|t].
  - rewrite app_nth1 by (rewrite bits_msb_length; lia). apply bits_msb_nth. exact Hj.
  - rewrite app_nth2; rewrite bits_msb_length; [|cbn; lia]. replace (S t * n + j - n)%nat with (t * n + j)%nat by (cbn; lia).
    cbn [nth]. apply IH; [lia|exact Hj].
Qed.

Lemma slice_assign_at (pre mid rest vals : list Z) : length mid = length vals ->
  slice_assign (pre ++ mid ++ rest) (length pre) (length pre + length vals) vals = Ok (pre ++ vals ++ rest).
Proof.
  intros H. unfold slice_assign. rewrite !app_length. replace (Nat.min (length pre + length vals) (length pre + (length mid + length rest)) - length pre)%nat with (length vals) by lia.
  rewrite Nat.eqb_refl. do 2 f_equal.
  - rewrite firstn_app, Nat.sub_diag, firstn_all, firstn_O, app_nil_r. reflexivity.
  - f_equal. rewrite skipn_app. rewrite skipn_all2 by lia. replace (length pre + length vals - length pre)%nat with (length mid) by lia.
    rewrite skipn_app, Nat.sub_diag, skipn_all. reflexivity.
Qed.

Section Enc.
Variable tr : Trellis.
Hypothesis V : valid_trellis tr.
Local Notation k := (tr_k tr).
Local Notation n := (tr_n tr).
Local Notation M := (tr_M tr).
Local Notation nx := (entry (tr_next tr)).
Local Notation ou := (entry (tr_out tr)).

Lemma walk_range us : forall s, 0 <= s < 2 ^ Z.of_nat M -> Forall (fun u => 0 <= u < 2 ^ Z.of_nat k) us -> 0 <= walk nx s us < 2 ^ Z.of_nat M.
Proof.
  induction us as [|u us IH]; intros s Hs Hu; [exact Hs|]. inversion Hu; subst. cbn [walk]. apply IH; [|assumption].
  destruct V as (_ & _ & H). apply H; assumption.
Qed.

(* the encoding loop *)
Lemma enc_fold (slices : nat -> list Z) idx : forall pre rest s j,
  (forall i, In i idx -> 0 <= bitarray2dec (slices i) < 2 ^ Z.of_nat k) -> 0 <= s < 2 ^ Z.of_nat M ->
  length pre = (j * n)%nat -> (length idx * n <= length rest)%nat ->
  let us := map (fun i => bitarray2dec (slices i)) idx in
  foldM (fun st i => enc_step tr st (slices i)) idx (pre ++ rest, s, j) =
  Ok (pre ++ bitstream n (emit nx ou s us) ++ skipn (length idx * n) rest, walk nx s us, (j + length idx)%nat).
Proof.
  induction idx as [|i idx IH]; intros pre rest s j Hu Hs Hp Hr; cbn zeta.
  - cbn [map emit walk foldM length]. rewrite Nat.add_0_r. reflexivity.
  - cbn [foldM map]. set (u := bitarray2dec (slices i)). assert (Hui : 0 <= u < 2 ^ Z.of_nat k) by (apply Hu; left; reflexivity).
    pose proof V as (_ & Hn1 & HV). destruct (HV s u Hs Hui) as (E1 & R1 & E2 & R2).
    unfold enc_step at 1. fold u.  rewrite E2. cbn [bind]. unfold dec2bitarray. rewrite decimal2bitarray_ok by exact R2. cbn [bind].
    cbn [length] in Hr.
    assert (Hsplit : rest = firstn n rest ++ skipn n rest) by (symmetry; apply firstn_skipn).
    assert (Hlf : length (firstn n rest) = n) by (rewrite firstn_length; lia).
    rewrite Hsplit at 1. replace ((j + 1) * n)%nat with (length pre + length (bits_msb n (entry (tr_out tr) s u)))%nat by (rewrite bits_msb_length; lia).
    rewrite <- Hp. rewrite slice_assign_at by (rewrite bits_msb_length; exact Hlf). cbn [bind]. rewrite E1. cbn [bind].
    rewrite app_assoc. rewrite (IH _ (skipn n rest) _ (j + 1)%nat).
    + cbn [emit walk length]. fold u. replace (j + 1 + length idx)%nat with (j + S (length idx))%nat by lia.
      rewrite skipn_skipn. replace (length idx * n + n)%nat with (S (length idx) * n)%nat by lia.
      unfold bitstream. cbn [map concat]. rewrite <- !app_assoc. reflexivity.
    + intros i' Hi'. apply Hu. right. exact Hi'.
    + exact R1.
    + rewrite app_length, bits_msb_length. cbn. lia.
    + rewrite skipn_length. lia.
Qed.

(* the puncturing loop *)
Lemma punct_loop_spec row outbits : row <> [] -> forall idx pre zs,
  (length (filter (keep row) idx) <= length zs)%nat ->
  punct_loop row outbits idx (pre ++ zs) (length pre) =
  Ok (pre ++ map (fun i => nth i outbits 0) (filter (keep row) idx) ++ skipn (length (filter (keep row) idx)) zs).
Proof.
  intros Hne. assert (Hz : (length row =? 0)%nat = false) by (destruct row; [contradiction|reflexivity]).
  induction idx as [|i idx IH]; intros pre zs Hl; [reflexivity|].
  cbn [punct_loop filter] in *. rewrite Hz. fold (keep row i). destruct (keep row i) eqn:Ek.
  - cbn [length] in Hl. destruct zs as [|z zs]; [cbn in Hl; lia|]. unfold py_set, py_idx.
    rewrite app_length. cbn [length]. replace ((0 <=? Z.of_nat (length pre)) && (Z.of_nat (length pre) <? Z.of_nat (length pre + S (length zs)))) with true by lia.
    cbn [bind]. rewrite Nat2Z.id.
    assert (Eu : forall (p : list Z) x, upd (p ++ z :: zs) (length p) x = (p ++ [x]) ++ zs).
    { induction p as [|y p IHp]; intros x; [reflexivity|]. cbn [app length upd]. f_equal. apply IHp. }
    rewrite Eu. replace (length pre + 1)%nat with (length (pre ++ [nth i outbits 0])) by (rewrite app_length; reflexivity).
    rewrite IH by (cbn in Hl; lia). cbn [map length skipn]. rewrite <- !app_assoc. reflexivity.
  - apply IH. exact Hl.
Qed.

Lemma punct_all outbits m : length outbits = m -> punct_loop (repeat 1 n) outbits (seq 0 m) (repeat 0 m) 0 = Ok outbits.
Proof.
  intros Hm. pose proof V as (_ & Hn & _).
  assert (Hk : forall i, keep (repeat 1 n) i = true).
  { intros i. unfold keep. rewrite repeat_length, nth_repeat_lt; [reflexivity|]. apply Nat.mod_upper_bound. lia. }
  assert (Hf : filter (keep (repeat 1 n)) (seq 0 m) = seq 0 m).
  { generalize (seq 0 m). intros l. induction l as [|x l IH]; [reflexivity|]. cbn [filter]. rewrite Hk, IH. reflexivity. }
  pose proof (punct_loop_spec (repeat 1 n) outbits ltac:(destruct n; [lia|discriminate]) (seq 0 m) [] (repeat 0 m)) as H. rewrite Hf in H. cbn [app length] in H.
  rewrite H by (rewrite seq_length, repeat_length; lia). f_equal. rewrite seq_length, skipn_all2 by (rewrite repeat_length; lia). rewrite app_nil_r.
  subst m. apply nth_ext_Z; [apply map_seq_length|]. intros i Hi. rewrite map_seq_length in Hi. rewrite nth_map_seq by exact Hi. reflexivity.
Qed.

(* the inputs of the clock cycles *)
Definition symbols (msg : list Z) : list Z := map (fun i => bitarray2dec (slice msg (i * k) ((i + 1) * k))) (seq 0 (length msg / k)).

Lemma symbols_length msg : length (symbols msg) = (length msg / k)%nat. Proof. apply map_seq_length. Qed.

Lemma bits_slice (l : list Z) a b : bits l -> bits (slice l a b).
Proof.
  intros H. unfold bits in *. rewrite Forall_forall in *. intros x Hx. apply H. unfold slice in Hx.
  assert (In x (skipn a l)) as Hx1. { rewrite <- (firstn_skipn (b - a) (skipn a l)). apply in_or_app. left. exact Hx. }
  rewrite <- (firstn_skipn a l). apply in_or_app. right. exact Hx1.
Qed.

Lemma slice_len_le {A} (l : list A) a b : (length (slice l a b) <= b - a)%nat.
Proof. unfold slice. rewrite firstn_length. lia. Qed.

Lemma slice_in_range msg i : bits msg -> 0 <= bitarray2dec (slice msg (i * k) ((i + 1) * k)) < 2 ^ Z.of_nat k.
Proof.
  intros Hb. pose proof (bitarray2dec_range _ (bits_slice msg (i * k) ((i + 1) * k) Hb)) as H.
  pose proof (slice_len_le msg (i * k) ((i + 1) * k)) as Hl.
  assert (2 ^ Z.of_nat (length (slice msg (i * k) ((i + 1) * k))) <= 2 ^ Z.of_nat k) by (apply Z.pow_le_mono_r; lia). lia.
Qed.

Lemma symbols_range msg : bits msg -> Forall (fun u => 0 <= u < 2 ^ Z.of_nat k) (symbols msg).
Proof. intros Hb. apply Forall_forall. intros u Hu. apply in_map_iff in Hu. destruct Hu as (i & <- & _). apply slice_in_range. exact Hb. Qed.

Lemma symbols_bit msg i t : bits msg -> (k * (length msg / k) <= length msg)%nat -> (t < length msg / k)%nat -> (i < k)%nat ->
  Z.testbit (nth t (symbols msg) 0) (Z.of_nat k - 1 - Z.of_nat i) = (nth (t * k + i) msg 0 =? 1).
Proof.
  intros Hb _ Ht Hi. unfold symbols. rewrite nth_map_seq by exact Ht.
  assert (Hlen : ((t + 1) * k <= length msg)%nat) by (pose proof (Nat.mul_div_le (length msg) k ltac:(lia)); nia).
  set (sl := slice msg (t * k) ((t + 1) * k)).
  assert (Hl : length sl = k) by (unfold sl; rewrite slice_length by exact Hlen; lia).
  assert (Hn : forall i, (i < k)%nat -> nth i sl 0 = nth (t * k + i) msg 0) by (intros i' Hi'; apply slice_nth; lia).
  rewrite (testbit_b2d_bits (fun q => nth (t * k + Z.to_nat (Z.of_nat k - 1 - q)) msg 0 =? 1) k sl); [|exact Hl| |lia].
  - do 3 f_equal. lia.
  - intros j Hj. rewrite Hn by exact Hj. replace (Z.to_nat (Z.of_nat k - 1 - (Z.of_nat k - 1 - Z.of_nat j))) with j by lia.
    destruct (bits_nth msg (t * k + j) Hb) as [-> | ->]; reflexivity.
Qed.

(* the general form of conv_encode without the recursive tail *)
Lemma conv_encode_plain (msg padded : list Z) (N : nat) term :
  bits padded ->
  (match term with Cont => padded = msg | _ => tr_rsc tr = true /\ padded = msg /\ term <> Term \/
       tr_rsc tr = false /\ padded = msg ++ repeat 0 (M + M mod k) end) ->
  N = Z.to_nat (match term with
        | Cont => int_div_rate (Z.of_nat (length msg)) k n
        | _ => if tr_rsc tr then int_div_rate (Z.of_nat (length msg + k * M)) k n else int_div_rate (Z.of_nat (length padded)) k n end) ->
  (length padded / k * n <= N)%nat ->
  conv_encode_st msg tr term None =
    Ok (bitstream n (emit nx ou 0 (symbols padded)) ++ repeat 0 (N - length padded / k * n), walk nx 0 (symbols padded)).
Proof.
  intros Hb Hterm HN Hle. unfold conv_encode_st.
  assert (HM : 0 <= 0 < 2 ^ Z.of_nat M) by (split; [lia|apply Z.pow_pos_nonneg; lia]).
  pose proof (enc_fold (fun i => slice padded (i * k) ((i + 1) * k)) (seq 0 (length padded / k)) [] (repeat 0 N) 0 0%nat) as HF.
  cbn zeta in HF. rewrite seq_length, repeat_length in HF. cbn [app length] in HF.
  specialize (HF ltac:(intros; apply slice_in_range; exact Hb) HM eq_refl ltac:(exact Hle)).
  fold (symbols padded) in HF. rewrite skipn_repeat in HF.
  assert (Hfin : forall (st : list Z * Z * nat), foldM (fun st i => enc_step tr st (slice padded (i * k) ((i + 1) * k))) (seq 0 (length padded / k)) (repeat 0 N, 0, 0%nat) = Ok st ->
     st = (bitstream n (emit nx ou 0 (symbols padded)) ++ repeat 0 (N - length padded / k * n), walk nx 0 (symbols padded), (0 + length padded / k)%nat)).
  { intros st E. rewrite E in HF. injection HF. auto. }
  assert (Hpl : length (bitstream n (emit nx ou 0 (symbols padded)) ++ repeat 0 (N - length padded / k * n)) = N).
  { rewrite app_length, repeat_length, bitstream_length, emit_length, symbols_length. lia. }
  pose proof (punct_all _ N Hpl) as HP.
  destruct term.
  - subst padded. rewrite <- HN. rewrite HF. cbn [bind]. destruct (tr_rsc tr); cbn [bind]; rewrite HP; reflexivity.
  - destruct Hterm as [(Hr & -> & Hne)|(Hr & Hp)]; [contradiction|]. rewrite Hr in *. rewrite Hp in HN. rewrite app_length, repeat_length in HN.
    replace (length msg + M + M mod k)%nat with (length msg + (M + M mod k))%nat by lia. rewrite <- HN.
    replace (length msg + (M + M mod k))%nat with (length padded) by (rewrite Hp, app_length, repeat_length; reflexivity).
    rewrite <- Hp. rewrite HF. cbn [bind]. rewrite HP. reflexivity.
  - destruct Hterm as [(Hr & -> & Hne)|(Hr & Hp)]; rewrite Hr in *.
    + rewrite <- HN. rewrite HF. cbn [bind]. rewrite HP. reflexivity.
    + rewrite Hp in HN. rewrite app_length, repeat_length in HN.
      replace (length msg + M + M mod k)%nat with (length msg + (M + M mod k))%nat by lia. rewrite <- HN.
      replace (length msg + (M + M mod k))%nat with (length padded) by (rewrite Hp, app_length, repeat_length; reflexivity).
      rewrite <- Hp. rewrite HF. cbn [bind]. rewrite HP. reflexivity.
Qed.

End Enc.
