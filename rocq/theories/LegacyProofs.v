(* The legacy constructor of Trellis (integer feedback), rate 1/n. *)
From Verif Require Import Base UtilModel UtilProofs TrellisModel TrellisSpec TrellisProofs ConvProofs.

(* The closed form, for one input, of the constructor modelled in LegacyModel.v (LegacyGen.one_input): *)
Definition legacy_next (mem : nat) (sr fbv inp : list Z) : list Z :=
  let feedback_array := Zsum (map (fun i => nth (i + 1) fbv 0 * nth i sr 0) (seq 0 mem)) in
  let shifted := map (fun i => if (i =? 0)%nat then nth 0 sr 0 else nth (i - 1) sr 0) (seq 0 mem) in
  upd shifted 0 ((nth 0 inp 0 + feedback_array) mod 2).

Definition legacy_entry (mem n : nat) (row : list Z) (feedback : Z) (current_state current_input : nat)
    : res (Z * Z) :=
  sr <- dec2bitarray (Z.of_nat current_state) mem ;;
  fbv <- dec2bitarray feedback (mem + 1) ;;
  inp <- dec2bitarray (Z.of_nat current_input) 1 ;;
  outbits <- mapM (fun r =>
      gen <- dec2bitarray (nth r row 0) (mem + 1) ;;
      let acc := fold_left (fun o i => (o + nth i sr 0 * nth (i + 1) gen 0) mod 2) (seq 0 mem) 0 in
      let feedback_array := Zsum (map (fun i => nth (i + 1) fbv 0 * nth i sr 0) (seq 0 mem)) in
      Ok ((acc + (nth 0 inp 0 * nth 0 gen 0 + feedback_array) mod 2) mod 2)) (seq 0 n) ;;
  Ok (bitarray2dec outbits, bitarray2dec (legacy_next mem sr fbv inp)).

Definition make_trellis_legacy (mem n : nat) (g_row : list Z) (feedback : Z) (rsc : bool) : res (Trellis * list Z) :=
  let row := if rsc then upd g_row 0 feedback else g_row in
  t <- mapM (fun s => mapM (fun u => legacy_entry mem n row feedback s u) (seq 0 2)) (seq 0 (2 ^ mem)) ;;
  Ok ({| tr_k := 1; tr_n := n; tr_M := mem; tr_next := map (map snd) t; tr_out := map (map fst) t; tr_rsc := rsc |}, row).


Lemma odd_fold (g : nat -> Z) l : forall acc, Z.odd (fold_left (fun o i => (o + g i) mod 2) l acc) = xorb (Z.odd acc) (xsum (map (fun i => Z.odd (g i)) l)).
Proof.
  induction l as [|i l IH]; intros acc; [cbn; rewrite xorb_false_r; reflexivity|]. cbn [fold_left map]. rewrite IH, odd_mod2, Z.odd_add, xsum_cons.
  apply xorb_assoc.
Qed.

Definition legacy_out (mem n : nat) (row : list Z) (feedback s u : Z) (r : nat) : bool :=
  xorb (xorb (Z.testbit u 0 && lcoef mem (nth r row 0) 0) (lsum mem feedback s)) (lsum mem (nth r row 0) s).

Lemma sum_bits mem p s : (0 <= p < 2 ^ Z.of_nat (mem + 1)) ->
  xsum (map (fun i => Z.odd (nth i (bits_msb mem s) 0 * nth (i + 1) (bits_msb (mem + 1) p) 0)) (seq 0 mem)) = lsum mem p s.
Proof.
  intros Hp. unfold lsum. rewrite <- seq_shift, map_map. apply xsum_ext. intros i Hi. apply in_seq in Hi.
  rewrite !bits_msb_nth by lia. rewrite Z.odd_mul, !odd_b2z, andb_comm. unfold lcoef. f_equal; f_equal; lia.
Qed.

Lemma legacy_entry_spec (mem n : nat) row feedback (s u : nat) : (1 <= mem)%nat ->
  (forall r, (r < n)%nat -> 0 <= nth r row 0 < 2 ^ Z.of_nat (mem + 1)) -> 0 <= feedback < 2 ^ Z.of_nat (mem + 1) ->
  Z.of_nat s < 2 ^ Z.of_nat mem -> (u < 2)%nat ->
  exists o s', legacy_entry mem n row feedback s u = Ok (o, s') /\ 0 <= o < 2 ^ Z.of_nat n /\ 0 <= s' < 2 ^ Z.of_nat mem /\
    (forall r, (r < n)%nat -> Z.testbit o (Z.of_nat n - 1 - Z.of_nat r) = legacy_out mem n row feedback (Z.of_nat s) (Z.of_nat u) r) /\
    (forall d, (1 <= d <= mem)%nat -> lcoef mem s' d = if (d =? 1)%nat then xorb (Z.testbit (Z.of_nat u) 0) (lsum mem feedback (Z.of_nat s)) else lcoef mem (Z.of_nat s) (d - 1)).
Proof.
  intros Hm Hrow Hfb Hs Hu. unfold legacy_entry, dec2bitarray.
  rewrite (decimal2bitarray_ok (Z.of_nat s) mem) by lia. cbn [bind]. rewrite (decimal2bitarray_ok feedback) by exact Hfb. cbn [bind].
  rewrite (decimal2bitarray_ok (Z.of_nat u) 1) by (change (2 ^ Z.of_nat 1) with 2; lia). cbn [bind].
  assert (Hu0 : nth 0 (bits_msb 1 (Z.of_nat u)) 0 = Z.of_nat u) by (destruct u as [|[|u]]; [reflexivity|reflexivity|lia]).
  rewrite Hu0. clear Hu0.
  assert (Hut : Z.testbit (Z.of_nat u) 0 = Z.odd (Z.of_nat u)) by apply Z.bit0_odd.
  set (fa := Zsum (map (fun i => nth (i + 1) (bits_msb (mem + 1) feedback) 0 * nth i (bits_msb mem (Z.of_nat s)) 0) (seq 0 mem))).
  assert (Hfa : Z.odd fa = lsum mem feedback (Z.of_nat s)).
  { unfold fa. rewrite odd_Zsum. rewrite <- (sum_bits mem feedback (Z.of_nat s) Hfb). apply xsum_ext. intros i _. f_equal. lia. }
  erewrite (mapM_Ok _ (fun r => Z.b2z (legacy_out mem n row feedback (Z.of_nat s) (Z.of_nat u) r))).
  2:{ intros r Hr. apply in_seq in Hr. rewrite decimal2bitarray_ok by (apply Hrow; lia). cbn [bind]. fold fa. rewrite mod2_odd. do 2 f_equal.
      rewrite Z.odd_add, odd_mod2, odd_fold, Z.odd_add, Z.odd_mul. change (Z.odd 0) with false. rewrite xorb_false_l, sum_bits by (apply Hrow; lia).
      rewrite bits_msb_nth by lia. rewrite odd_b2z, Hfa. unfold legacy_out. rewrite Hut. unfold lcoef at 1.
      replace (Z.of_nat (mem + 1) - 1 - Z.of_nat 0) with (Z.of_nat mem - Z.of_nat 0) by lia. apply xorb_comm. }
  cbn [bind].
  set (ob := map (fun r => Z.b2z (legacy_out mem n row feedback (Z.of_nat s) (Z.of_nat u) r)) (seq 0 n)).
  assert (Hob : bits ob) by (apply Forall_forall; intros x Hx; apply in_map_iff in Hx; destruct Hx as (r & <- & _); apply is_bit_b2z).
  assert (Hol : length ob = n) by apply map_seq_length.
  set (nb := legacy_next mem (bits_msb mem (Z.of_nat s)) (bits_msb (mem + 1) feedback) (bits_msb 1 (Z.of_nat u))).
  assert (Hnl : length nb = mem) by (unfold nb, legacy_next; rewrite upd_length; apply map_seq_length).
  assert (Hn : forall i, (i < mem)%nat -> nth i nb 0 = Z.b2z (if (i =? 0)%nat then xorb (Z.testbit (Z.of_nat u) 0) (lsum mem feedback (Z.of_nat s)) else lcoef mem (Z.of_nat s) i)).
  { intros i Hi. unfold nb, legacy_next. destruct (Nat.eqb_spec i 0) as [->|Hne].
    - rewrite nth_upd_eq by (rewrite map_seq_length; lia). fold fa. rewrite mod2_odd, Z.odd_add, Hfa. rewrite bits_msb_nth by lia. rewrite odd_b2z. reflexivity.
    - rewrite nth_upd_neq by exact Hne. rewrite nth_map_seq by exact Hi. replace (i =? 0)%nat with false by lia. rewrite bits_msb_nth by lia. unfold lcoef. do 2 f_equal. lia. }
  assert (Hnb : bits nb) by (apply bits_of_nth; intros i Hi; rewrite Hnl in Hi; rewrite Hn by exact Hi; apply is_bit_b2z).
  exists (bitarray2dec ob), (bitarray2dec nb). split; [reflexivity|].
  pose proof (bitarray2dec_range ob Hob) as H1. pose proof (bitarray2dec_range nb Hnb) as H2. rewrite Hol in H1. rewrite Hnl in H2.
  split; [exact H1|]. split; [exact H2|]. split.
  - intros r Hr. pose proof (bits_msb_b2d ob Hob) as E. rewrite Hol in E. pose proof (bits_msb_nth n (bitarray2dec ob) r Hr) as E2. rewrite E in E2.
    unfold ob at 1 in E2. rewrite nth_map_seq in E2 by exact Hr.
    destruct (Z.testbit (bitarray2dec ob) (Z.of_nat n - 1 - Z.of_nat r)), (legacy_out mem n row feedback (Z.of_nat s) (Z.of_nat u) r); cbn in E2; congruence.
  - intros d Hd. pose proof (bits_msb_b2d nb Hnb) as E. rewrite Hnl in E. pose proof (bits_msb_nth mem (bitarray2dec nb) (d - 1) ltac:(lia)) as E2. rewrite E in E2.
    rewrite Hn in E2 by lia. unfold lcoef at 1. replace (Z.of_nat mem - Z.of_nat d) with (Z.of_nat mem - 1 - Z.of_nat (d - 1)) by lia.
    replace (d =? 1)%nat with (d - 1 =? 0)%nat by lia.
    destruct (Z.testbit (bitarray2dec nb) (Z.of_nat mem - 1 - Z.of_nat (d - 1))); destruct (if (d - 1 =? 0)%nat then _ else _); cbn in E2; congruence.
Qed.

Lemma nth_nth_map2 {A B} (f : A -> B) (t : list (list A)) i j d d' : (i < length t)%nat -> (j < length (nth i t []))%nat ->
  nth j (nth i (map (map f) t) []) d' = f (nth j (nth i t []) d).
Proof.
  intros Hi Hj. rewrite (nth_indep _ [] (map f [])) by (rewrite map_length; exact Hi). rewrite map_nth.
  rewrite (nth_indep _ d' (f d)) by (rewrite map_length; exact Hj). apply map_nth.
Qed.

Lemma mapM_nth {A B} (f : A -> res B) l : (forall x, In x l -> exists y, f x = Ok y) -> exists r, mapM f l = Ok r /\ length r = length l /\
  forall i d d', (i < length l)%nat -> f (nth i l d) = Ok (nth i r d').
Proof.
  induction l as [|a l IH]; intros H; [exists []; repeat split; cbn; lia|].
  destruct (H a (or_introl eq_refl)) as (y & Hy). destruct (IH (fun x Hx => H x (or_intror Hx))) as (r & Hr & Hl & Hn).
  exists (y :: r). cbn [mapM]. rewrite Hy. cbn [bind]. rewrite Hr. cbn [bind]. split; [reflexivity|]. split; [cbn; lia|].
  intros i d d' Hi. destruct i as [|i]; [exact Hy|]. cbn [nth length] in *. apply Hn. lia.
Qed.

Lemma table_get_entry t (s u : Z) : 0 <= s < Z.of_nat (length t) -> 0 <= u < Z.of_nat (length (nth (Z.to_nat s) t [])) -> table_get t s u = Ok (entry t s u).
Proof.
  intros Hs Hu. unfold table_get, entry. rewrite <- (Z2Nat.id s) at 1 by lia. rewrite (py_get_ok _ (Z.to_nat s) []) by lia. cbn [bind].
  rewrite <- (Z2Nat.id u) at 1 by lia. rewrite (py_get_ok _ (Z.to_nat u) (-1)) by lia. reflexivity.
Qed.

Lemma legacy_assemble (tr : Trellis) (mem n : nat) (Q : Z -> Z -> Z -> Z -> Prop) : (1 <= n)%nat -> tr_k tr = 1%nat -> tr_n tr = n -> tr_M tr = mem ->
  (forall s u, 0 <= s < 2 ^ Z.of_nat mem -> 0 <= u < 2 ->
    table_get (tr_next tr) s u = Ok (entry (tr_next tr) s u) /\ table_get (tr_out tr) s u = Ok (entry (tr_out tr) s u) /\
    0 <= entry (tr_out tr) s u < 2 ^ Z.of_nat n /\ 0 <= entry (tr_next tr) s u < 2 ^ Z.of_nat mem /\ Q s u (entry (tr_out tr) s u) (entry (tr_next tr) s u)) ->
  valid_trellis tr /\ forall s u, 0 <= s < 2 ^ Z.of_nat mem -> 0 <= u < 2 ->
      0 <= entry (tr_out tr) s u < 2 ^ Z.of_nat n /\ 0 <= entry (tr_next tr) s u < 2 ^ Z.of_nat mem /\ Q s u (entry (tr_out tr) s u) (entry (tr_next tr) s u).
Proof.
  intros Hn Hk En EM H. split.
  - unfold valid_trellis. rewrite Hk, En, EM. split; [lia|]. split; [lia|]. intros s u Hs Hu. change (2 ^ Z.of_nat 1) with 2 in Hu. destruct (H s u Hs Hu) as (H1 & H2 & H3 & H4 & _).
    split; [exact H1|]. split; [exact H4|]. split; [exact H2|exact H3].
  - intros s u Hs Hu. apply (H s u Hs Hu).
Qed.

Lemma legacy_spec (mem n : nat) (g_row : list Z) (feedback : Z) (rsc : bool) : (1 <= mem)%nat -> (1 <= n <= length g_row)%nat ->
  (forall r, (r < n)%nat -> 0 <= nth r g_row 0 < 2 ^ Z.of_nat (mem + 1)) -> 0 <= feedback < 2 ^ Z.of_nat (mem + 1) ->
  let row := if rsc then upd g_row 0 feedback else g_row in
  exists tr, make_trellis_legacy mem n g_row feedback rsc = Ok (tr, row) /\
    tr_k tr = 1%nat /\ tr_n tr = n /\ tr_M tr = mem /\ tr_rsc tr = rsc /\ valid_trellis tr /\
    forall s u, 0 <= s < 2 ^ Z.of_nat mem -> 0 <= u < 2 ->
      let o := entry (tr_out tr) s u in let s' := entry (tr_next tr) s u in
      0 <= o < 2 ^ Z.of_nat n /\ 0 <= s' < 2 ^ Z.of_nat mem /\
      (forall r, (r < n)%nat -> Z.testbit o (Z.of_nat n - 1 - Z.of_nat r) = legacy_out mem n row feedback s u r) /\
      (forall d, (1 <= d <= mem)%nat -> lcoef mem s' d = if (d =? 1)%nat then xorb (Z.testbit u 0) (lsum mem feedback s) else lcoef mem s (d - 1)).
Proof.
  intros Hm Hn Hrow Hfb row.
  assert (Hrow' : forall r, (r < n)%nat -> 0 <= nth r row 0 < 2 ^ Z.of_nat (mem + 1)).
  { intros r Hr. unfold row. destruct rsc; [|apply Hrow; exact Hr]. rewrite nth_upd. destruct (_ && _); [exact Hfb|apply Hrow; exact Hr]. }
  unfold make_trellis_legacy. fold row.
  assert (Hs2 : forall s, In s (seq 0 (2 ^ mem)) -> Z.of_nat s < 2 ^ Z.of_nat mem).
  { intros s Hs. apply in_seq in Hs. rewrite <- pow2_nat. lia. }
  destruct (mapM_nth (fun s => mapM (fun u => legacy_entry mem n row feedback s u) (seq 0 2)) (seq 0 (2 ^ mem))) as (t & Ht & Hl & Hnt).
  { intros s Hs. destruct (mapM_nth (fun u => legacy_entry mem n row feedback s u) (seq 0 2)) as (r & Hr & _).
    - intros u Hu. apply in_seq in Hu. destruct (legacy_entry_spec mem n row feedback s u Hm Hrow' Hfb (Hs2 s Hs) ltac:(lia)) as (o & s' & E & _). exists (o, s'). exact E.
    - exists r. exact Hr. }
  rewrite Ht. cbn [bind]. eexists. split; [reflexivity|]. cbn [tr_k tr_n tr_M tr_rsc tr_out tr_next]. do 4 (split; [reflexivity|]).
  rewrite seq_length in Hl, Hnt.
  apply (legacy_assemble {| tr_k := 1; tr_n := n; tr_M := mem; tr_next := map (map snd) t; tr_out := map (map fst) t; tr_rsc := rsc |} mem n (fun s u o s' => (forall r, (r < n)%nat -> Z.testbit o (Z.of_nat n - 1 - Z.of_nat r) = legacy_out mem n row feedback s u r) /\
      (forall d, (1 <= d <= mem)%nat -> lcoef mem s' d = if (d =? 1)%nat then xorb (Z.testbit u 0) (lsum mem feedback s) else lcoef mem s (d - 1)))); [lia|reflexivity|reflexivity|reflexivity|]. cbn [tr_next tr_out].
  intros s u Hs Hu.
  assert (Hsn : (Z.to_nat s < 2 ^ mem)%nat) by (apply Nat2Z.inj_lt; rewrite Z2Nat.id, pow2_nat by lia; lia).
  specialize (Hnt (Z.to_nat s) 0%nat [] Hsn). rewrite seq_nth in Hnt by exact Hsn. cbn [Nat.add] in Hnt.
  set (ts := nth (Z.to_nat s) t []) in *.
  destruct (mapM_nth (fun u => legacy_entry mem n row feedback (Z.to_nat s) u) (seq 0 2)) as (r & Hr & Hrl & Hrn).
  { intros v Hv. apply in_seq in Hv. destruct (legacy_entry_spec mem n row feedback (Z.to_nat s) v Hm Hrow' Hfb ltac:(lia) ltac:(lia)) as (o & s' & E & _). exists (o, s'). exact E. }
  rewrite Hr in Hnt. injection Hnt as Hnt. subst r. rewrite seq_length in Hrl, Hrn.
  specialize (Hrn (Z.to_nat u) 0%nat (0, 0) ltac:(lia)). rewrite seq_nth in Hrn by lia. cbn [Nat.add] in Hrn.
  destruct (legacy_entry_spec mem n row feedback (Z.to_nat s) (Z.to_nat u) Hm Hrow' Hfb ltac:(lia) ltac:(lia)) as (o & s' & E & H1 & H2 & H3 & H4).
  rewrite Hrn in E. injection E as E. rewrite !Z2Nat.id in H3, H4 by lia.
  assert (Hls : Z.of_nat (length t) = 2 ^ Z.of_nat mem) by (rewrite Hl; apply pow2_nat).
  assert (Hlm : forall f : Z * Z -> Z, length (nth (Z.to_nat s) (map (map f) t) []) = 2%nat).
  { intros f. rewrite (nth_indep _ [] (map f [])) by (rewrite map_length; lia). rewrite map_nth, map_length. exact Hrl. }
  split; [apply table_get_entry; [rewrite map_length; lia|rewrite Hlm; lia]|]. split; [apply table_get_entry; [rewrite map_length; lia|rewrite Hlm; lia]|].
  unfold entry. rewrite (nth_nth_map2 fst _ _ _ (0, 0)) by (fold ts; lia). rewrite (nth_nth_map2 snd _ _ _ (0, 0)) by (fold ts; lia). fold ts. rewrite E. cbn [fst snd].
  split; [exact H1|]. split; [exact H2|]. split; [exact H3|exact H4].
Qed.

Lemma legacy_systematic mem n row feedback s u : nth 0 row 0 = feedback -> legacy_out mem n row feedback s u 0 = Z.testbit u 0 && lcoef mem feedback 0.
Proof. intros H. unfold legacy_out. rewrite H. rewrite xorb_assoc, xorb_nilpotent, xorb_false_r. reflexivity. Qed.
