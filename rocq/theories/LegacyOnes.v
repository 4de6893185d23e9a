(* The constructor with feedback 0 and one cell per register *)
From Verif Require Import Base UtilModel UtilProofs TrellisModel TrellisSpec TrellisProofs LegacyModel LegacyGen.

Lemma foldM_app : forall {A B} (f : B -> A -> res B) l1 l2 b, foldM f (l1 ++ l2) b = (x <- foldM f l1 b ;; foldM f l2 x).
Proof. intros A B f l1. induction l1 as [|a l1 IH]; intros l2 b; [reflexivity|]. cbn [app foldM]. destruct (f b a); [apply IH|reflexivity]. Qed.
Section Ones.
  Variables (n : nat) (g : list (list Z)).
  Let k := length g.
  Hypothesis Hk : (1 <= k)%nat.
  Hypothesis Hn : (1 <= n)%nat.
  Hypothesis Hrow : forall i, (i < k)%nat -> length (nth i g []) = n.
  Hypothesis Hg : forall i j, (i < k)%nat -> (j < n)%nat -> 0 <= nth j (nth i g []) 0 < 4.
  Let C := {| memory := repeat 1%nat k; outs := n; gens := g; fback := None; fmt := LSB |}.

  Lemma ones_nth : forall i, (i < k)%nat -> nth i (repeat 1%nat k) 0%nat = 1%nat.
  Proof. clear. intros i Hi. revert i Hi. induction k as [|m IH]; intros i Hi; [lia|]. destruct i; [reflexivity|]. cbn [repeat nth]. apply IH. lia. Qed.
  Lemma ones_sum : forall m, sum_mem (repeat 1%nat m) = m.
  Proof. clear. induction m; [reflexivity|]. cbn [repeat]. rewrite sum_mem_cons, IHm. reflexivity. Qed.
  Lemma ones_offset : forall m c, (c <= m)%nat -> offset (repeat 1%nat m) c = c.
  Proof. clear. induction m as [|m IH]; intros c Hc; [destruct c; [reflexivity|lia]|]. destruct c; [reflexivity|]. cbn [repeat]. rewrite offset_S, IH by lia. reflexivity. Qed.
  Lemma ones_max : max_mem (repeat 1%nat k) = 1%nat.
  Proof. clear - Hk. destruct k as [|m]; [lia|]. clear. cbn [repeat]. induction m; [reflexivity|]. cbn [repeat max_mem fold_right] in *. lia. Qed.
  Lemma ones_wf : well_formed C.
  Proof.
    assert (EW : WW C = 2%nat) by (unfold WW; cbn [memory C]; rewrite ones_max; reflexivity). assert (EK : kk C = k) by (unfold kk; cbn; apply repeat_length).
    split; [cbn; destruct k; [lia|discriminate]|]. split; [rewrite EK; reflexivity|]. split; [discriminate|]. split; [|discriminate].
    rewrite EK, EW. intros i j Hi Hj. split; [unfold mat_get; apply Hg; [exact Hi|exact Hj]|]. intros d Hd. unfold gcoef, pcoef. rewrite EW. unfold mem in Hd. cbn [memory C] in Hd. rewrite ones_nth in Hd by exact Hi. cbn [fmt C]. replace (d <? 2)%nat with false by lia. reflexivity.
  Qed.

  Definition sbit (s : nat) (i : nat) : bool := Z.testbit (Z.of_nat s) (Z.of_nat k - 1 - Z.of_nat i).
  Definition gbit (i r : nat) (d : nat) : bool := Z.testbit (nth r (nth i g []) 0) (1 - Z.of_nat d).
  Lemma ones_rounds : forall s u r c, (s < 2 ^ k)%nat -> (u < 2 ^ k)%nat -> (r < n)%nat -> (c <= k)%nat ->
    foldM (int_round (repeat 1%nat k) g 0 (bits_msb k (Z.of_nat u)) r) (seq 0 c) (0, bits_msb k (Z.of_nat s), [], 0) =
    Ok (Z.b2z (xsum (map (fun i => sbit s i && gbit i r 1) (seq 0 c))), firstn c (bits_msb k (Z.of_nat u)) ++ skipn c (bits_msb k (Z.of_nat s)), map (fun i => Z.b2z (gbit i r 0)) (seq 0 c), 0).
  Proof.
    intros s u r c Hs Hu Hr. set (inp := bits_msb k (Z.of_nat u)). set (sr0 := bits_msb k (Z.of_nat s)). assert (Li : length inp = k) by apply bits_msb_length. assert (Ls : length sr0 = k) by apply bits_msb_length.
    induction c as [|c IH]; intros Hc; [reflexivity|]. rewrite seq_S. rewrite foldM_app. rewrite IH by lia. clear IH. cbn [bind foldM Nat.add].
    set (sr := firstn c inp ++ skipn c sr0). assert (Lsr : length sr = k) by (unfold sr; rewrite app_length, firstn_length, skipn_length; lia).
    assert (Nc : nth c sr 0 = Z.b2z (sbit s c)) by (unfold sr; rewrite app_nth2 by (rewrite firstn_length; lia); rewrite firstn_length; replace (c - Nat.min c (length inp))%nat with 0%nat by lia; rewrite skipn_nth, Nat.add_0_r; unfold sr0; rewrite bits_msb_nth by lia; reflexivity).
    unfold int_round. rewrite (py_get_ok (repeat 1%nat k) c 0%nat) by (rewrite repeat_length; lia). rewrite ones_nth by lia. cbn [bind]. rewrite (py_get_ok g c []) by (fold k; lia). cbn [bind]. rewrite (py_get_ok _ r 0) by (rewrite Hrow; lia). cbn [bind]. rewrite fits_dec by (apply (Hg c r); lia). cbn [bind seq foldM Nat.add].
    set (gen := bits_msb 2 (nth r (nth c g []) 0)). assert (Lg : length gen = 2%nat) by apply bits_msb_length. assert (N0 : nth 0 gen 0 = Z.b2z (gbit c r 0)) by (unfold gen; rewrite bits_msb_nth by lia; reflexivity). assert (N1 : nth 1 gen 0 = Z.b2z (gbit c r 1)) by (unfold gen; rewrite bits_msb_nth by lia; reflexivity).
    rewrite (py_get_ok sr c 0) by lia. cbn [bind]. rewrite (py_get_ok gen 1 0) by lia. cbn [bind]. change (py_get gen 0) with (py_get gen (Z.of_nat 0)). rewrite (py_get_ok gen 0 0) by lia. cbn [bind]. change (dec2bitarray 0 2) with (Ok [0; 0]). cbn [bind]. rewrite (py_get_ok inp c 0) by lia. cbn [bind].
    rewrite Nc, N0, N1, !map_app. cbn [map]. rewrite xsum_app, xsum_cons. change (xsum []) with false. rewrite xorb_false_r.
    assert (Eo : (Z.b2z (xsum (map (fun i => sbit s i && gbit i r 1) (seq 0 c))) + Z.b2z (sbit s c) * Z.b2z (gbit c r 1)) mod 2 = Z.b2z (xorb (xsum (map (fun i => sbit s i && gbit i r 1) (seq 0 c))) (sbit s c && gbit c r 1))) by (destruct (xsum _), (sbit s c), (gbit c r 1); reflexivity). rewrite Eo.
    assert (Eu : (nth c inp 0 + 0) mod 2 = nth c inp 0) by (unfold inp; rewrite bits_msb_nth by lia; destruct (Z.testbit _ _); reflexivity).
    assert (Efin : upd sr c (nth c inp 0) = firstn (S c) inp ++ skipn (S c) sr0).
    { apply (nth_ext _ _ 0 0); [rewrite upd_length, app_length, firstn_length, skipn_length; lia|]. intros i Hi. rewrite upd_length in Hi. destruct (Nat.lt_trichotomy i c) as [Hi'|[->|Hi']].
      - rewrite nth_upd_neq by lia. unfold sr. rewrite !app_nth1 by (rewrite firstn_length; lia). rewrite !firstn_nth by lia. reflexivity.
      - rewrite nth_upd_eq by lia. rewrite app_nth1 by (rewrite firstn_length; lia). rewrite firstn_nth by lia. reflexivity.
      - rewrite nth_upd_neq by lia. unfold sr. rewrite !app_nth2 by (rewrite firstn_length; lia). rewrite !firstn_length, !skipn_nth. f_equal. lia. }
    destruct (Nat.eqb_spec c 0) as [->|Hne].
    - destruct sr as [|x sr'] eqn:Er; [cbn in Lsr; lia|]. rewrite <- Er in *. assert (py_slice sr 0 (Z.of_nat 1) = [x]) as ->.
      { change 0 with (Z.of_nat 0). rewrite py_slice_nat by lia. rewrite Er. reflexivity. }
      cbn [tl np_dot np_broadcast2 length Nat.eqb bind combine map fst snd]. replace (Zsum [0 * x]) with 0 by (rewrite Zsum_cons; cbn; lia). change (py_store sr 1 (Z.of_nat 1) (py_slice sr 0 (Z.of_nat 1 - 1))) with (py_store sr (Z.of_nat 1) (Z.of_nat 1) (py_slice sr (Z.of_nat 0) (Z.of_nat 0))).
      assert (py_slice sr (Z.of_nat 0) (Z.of_nat 0) = []) as -> by (apply length_zero_iff_nil; rewrite firstn_slice_length; lia).
      assert (Ew : py_store sr (Z.of_nat 1) (Z.of_nat 1) [] = Ok sr). { unfold py_store. rewrite !py_bound_nat, !Nat.min_l by lia. rewrite !Nat.sub_diag. cbn [length Nat.eqb bind app]. rewrite Nat.add_0_r, firstn_skipn. reflexivity. }
      rewrite Ew. cbn [bind]. change (py_set sr 0) with (py_set sr (Z.of_nat 0)). rewrite py_set_ok by lia. cbn [bind]. rewrite Eu, Efin. reflexivity.
    - replace (Z.of_nat c - 1) with (Z.of_nat (c - 1)) by lia. rewrite (py_get_ok (repeat 1%nat k) (c - 1) 0%nat) by (rewrite repeat_length; lia). rewrite ones_nth by lia. cbn [bind].
      replace (Z.of_nat c + Z.of_nat 1 + Z.of_nat 1 - 1) with (Z.of_nat (c + 1)) by lia. replace (Z.of_nat c + Z.of_nat 1 + Z.of_nat 1 - 2) with (Z.of_nat c) by lia. replace (Z.of_nat c + Z.of_nat 1 - 1) with (Z.of_nat c) by lia. replace (Z.of_nat c + Z.of_nat 1) with (Z.of_nat (c + 1)) by lia.
      assert (Lp : length (py_slice sr (Z.of_nat c) (Z.of_nat (c + 1))) = 1%nat) by (rewrite firstn_slice_length; lia). destruct (py_slice sr (Z.of_nat c) (Z.of_nat (c + 1))) as [|x [|]]; cbn [length] in Lp; try lia. clear Lp. cbn [np_dot np_broadcast2 length Nat.eqb bind map fst snd].
      replace (Zsum _) with 0 by (rewrite !Zsum_cons; cbn; lia).
      destruct (py_store_same sr (c + 1) (c + 1) (py_slice sr (Z.of_nat c) (Z.of_nat c))) as (w & Ew & _); [lia|rewrite firstn_slice_length; lia|].
      assert (w = sr) as ->. { unfold py_store in Ew. rewrite !py_bound_nat, !Nat.min_l in Ew by lia. rewrite firstn_slice_length in Ew by lia. rewrite !Nat.sub_diag in Ew. cbn [Nat.eqb bind] in Ew. injection Ew as <-. assert (py_slice sr (Z.of_nat c) (Z.of_nat c) = []) as -> by (apply length_zero_iff_nil; rewrite firstn_slice_length; lia). rewrite Nat.add_0_r. apply firstn_skipn. }
      rewrite Ew. cbn [bind]. rewrite py_set_ok by lia. cbn [bind]. rewrite Eu, Efin. reflexivity.
  Qed.
  Lemma ones_output : forall s u r, (s < 2 ^ k)%nat -> (u < 2 ^ k)%nat -> (r < n)%nat ->
    int_output (repeat 1%nat k) k g 0 s u r = Ok (Z.b2z (xsum (map (fun i => xorb (sbit u i && gbit i r 0) (sbit s i && gbit i r 1)) (seq 0 k))), bits_msb k (Z.of_nat u)).
  Proof.
    intros s u r Hs Hu Hr. assert (Hs' : Z.of_nat s < 2 ^ Z.of_nat k) by (rewrite <- pow2_nat; lia). assert (Hu' : Z.of_nat u < 2 ^ Z.of_nat k) by (rewrite <- pow2_nat; lia).
    unfold int_output. rewrite ones_sum, !fits_dec by lia. cbn [bind]. rewrite ones_rounds by lia. cbn [bind]. f_equal. f_equal.
    - rewrite xsum_xor. assert (E : map (fun xy => fst xy * snd xy + 0) (combine (bits_msb k (Z.of_nat u)) (map (fun i => Z.b2z (gbit i r 0)) (seq 0 k))) = map (fun i => Z.b2z (sbit u i && gbit i r 0)) (seq 0 k)).
      { apply (nth_ext _ _ 0 0); [rewrite !map_length, combine_length, bits_msb_length, map_length, !seq_length; lia|]. intros i Hi. rewrite map_length, combine_length, bits_msb_length, map_length, seq_length in Hi.
        rewrite (nth_indep _ 0 ((fun xy => fst xy * snd xy + 0) (0, 0))) by (rewrite map_length, combine_length, bits_msb_length, map_length, seq_length; lia). rewrite (map_nth (fun xy => fst xy * snd xy + 0)). rewrite combine_nth by (rewrite bits_msb_length, map_length, seq_length; reflexivity). cbn [fst snd]. rewrite bits_msb_nth, !nth_map_seq by lia. fold (sbit u i). destruct (sbit u i), (gbit i r 0); reflexivity. }
      rewrite E. rewrite (mod2_b2z (Zsum _)), odd_Zsum. rewrite (xsum_ext (fun x => Z.odd (Z.b2z (sbit u x && gbit x r 0))) (fun x => sbit u x && gbit x r 0)) by (intros x _; destruct (_ && _); reflexivity). destruct (xsum (map (fun i => sbit s i && gbit i r 1) _)), (xsum _); reflexivity.
    - rewrite firstn_all2, skipn_all2 by (rewrite bits_msb_length; lia). apply app_nil_r.
  Qed.
  Lemma ones_entry : forall s u, (s < 2 ^ k)%nat -> (u < 2 ^ k)%nat -> int_entry (repeat 1%nat k) k n g 0 s u = Ok (out_f C (Z.of_nat s) (Z.of_nat u), next_f C (Z.of_nat s) (Z.of_nat u)).
  Proof.
    intros s u Hs Hu. assert (Hu' : Z.of_nat u < 2 ^ Z.of_nat k) by (rewrite <- pow2_nat; lia). unfold int_entry. rewrite (mapM_Ok _ (fun r => (Z.b2z (xsum (map (fun i => xorb (sbit u i && gbit i r 0) (sbit s i && gbit i r 1)) (seq 0 k))), bits_msb k (Z.of_nat u)))) by (intros r Hr; apply in_seq in Hr; apply ones_output; lia). cbn [bind]. rewrite map_map. cbn [fst].
    assert (EK : kk C = k) by (unfold kk; cbn; apply repeat_length). assert (EW : WW C = 2%nat) by (unfold WW; cbn [memory C]; rewrite ones_max; reflexivity).
    assert (Ec0 : forall v w i, cell (memory C) v (Z.of_nat w) i 0 = sbit w i) by (intros v w i; unfold cell; cbn [Nat.eqb memory C]; rewrite repeat_length; reflexivity).
    assert (Ec1 : forall v w i, (i < k)%nat -> cell (memory C) v w i 1 = Z.testbit v (Z.of_nat k - 1 - Z.of_nat i)) by (intros v w i Hi; unfold cell; cbn [Nat.eqb memory C]; rewrite ones_sum, ones_offset by lia; f_equal; lia).
    assert (El : forall f, line_sum C f = xsum (map (fun i => xorb (f i 0%nat) (f i 1%nat)) (seq 0 k))).
    { intros f. unfold line_sum. rewrite EK. apply xsum_ext. intros i Hi. apply in_seq in Hi. unfold mem. cbn [memory C]. rewrite ones_nth by lia. cbn [seq map]. rewrite !xsum_cons. change (xsum []) with false. rewrite xorb_false_r. reflexivity. }
    assert (Eg : forall i r d, (d <= 1)%nat -> gcoef C i r d = gbit i r d).
    { intros i r d Hd. unfold gcoef, pcoef, gbit, mat_get. rewrite EW. cbn [fmt C gens]. replace (d <? 2)%nat with true by lia. cbn [andb]. reflexivity. }
    match goal with |- context [last ?x ?d] => assert (snd (last x d) = bits_msb k (Z.of_nat u)) as EL end.
    { destruct n as [|m]; [lia|]. rewrite (seq_S m 0), map_app. cbn [map]. rewrite last_last. reflexivity. }
    rewrite EL. destruct (map _ (seq 0 n)) as [|] eqn:E0 at 1; [destruct n; [lia|discriminate E0]|]. clear E0 EL. f_equal.
    assert (St : encoder_step C (Z.of_nat s) (Z.of_nat u) (bitarray2dec (map (fun x => Z.b2z (xsum (map (fun i => xorb (sbit u i && gbit i x 0) (sbit s i && gbit i x 1)) (seq 0 k)))) (seq 0 n))) (bitarray2dec (bits_msb k (Z.of_nat u)))).
    { rewrite b2d_bits_msb, Z.mod_small by lia. assert (Eo : bitarray2dec (map (fun x => Z.b2z (xsum (map (fun i => xorb (sbit u i && gbit i x 0) (sbit s i && gbit i x 1)) (seq 0 k)))) (seq 0 n)) = out_f C (Z.of_nat s) (Z.of_nat u)).
      { unfold out_f. cbn [outs C]. f_equal. apply map_ext. intros r. f_equal. rewrite El. apply xsum_ext. intros i Hi. apply in_seq in Hi. rewrite Ec0, Ec1 by lia. rewrite !Eg by lia. reflexivity. }
      rewrite Eo. split; [apply out_f_range|]. unfold MM. cbn [memory C outs]. rewrite ones_sum. split; [lia|]. split; [intros j Hj; apply (out_f_bit C); exact Hj|].
      rewrite EK. intros c d Hc Hd. unfold mem in Hd. cbn [memory C] in Hd. rewrite ones_nth in Hd by exact Hc. replace d with 1%nat by lia. cbn [Nat.eqb]. rewrite El. fold C. change (repeat 1%nat k) with (memory C). rewrite Ec1 by exact Hc.
      rewrite (xsum_single (fun i => xorb (cell (memory C) (Z.of_nat s) (Z.of_nat u) i 0 && fcoef C c i 0) (cell (memory C) (Z.of_nat s) (Z.of_nat u) i 1 && fcoef C c i 1)) k c Hc).
      - unfold fcoef. cbn [fback C]. rewrite Nat.eqb_refl. cbn [Nat.eqb andb]. rewrite Ec0, andb_false_r, andb_true_r, xorb_false_r. reflexivity.
      - intros j Hj Hne. unfold fcoef. cbn [fback C]. replace (c =? j)%nat with false by lia. cbn [andb]. rewrite !andb_false_r. reflexivity. }
    destruct (step_unique C _ _ _ _ St) as (E1 & E2). rewrite E1, E2. reflexivity.
  Qed.
  Lemma ones_trellis : forall garbage, exists tr, make_trellis_int (repeat 1%nat k) n g 0 false = Ok (tr, g) /\ trellis_of garbage C false = Ok tr.
  Proof.
    intros garbage. exists (the_trellis C false). split; [|apply trellis_of_spec, ones_wf]. unfold make_trellis_int. fold k. cbn [bind]. rewrite ones_sum.
    rewrite (mapM_Ok _ (fun s => map (fun u => (out_f C (Z.of_nat s) (Z.of_nat u), next_f C (Z.of_nat s) (Z.of_nat u))) (seq 0 (2 ^ k)))).
    2:{ intros s Hs. apply in_seq in Hs. apply mapM_Ok. intros u Hu. apply in_seq in Hu. apply ones_entry; lia. }
    cbn [bind]. f_equal. f_equal. unfold the_trellis, table. assert (EK : kk C = k) by (unfold kk; cbn; apply repeat_length). assert (EM : MM C = k) by (unfold MM; cbn; apply ones_sum). rewrite EK, EM. cbn [outs C]. rewrite !map_map. f_equal; apply map_ext; intros s; rewrite map_map; reflexivity.
  Qed.
End Ones.
