(* Final forms of the turbo code theorems (statements repeated in P_Turbo.v). *)
From Coq Require Import Reals Lra.
From Verif Require Import Base UtilModel UtilProofs SeqModel SeqProofs TrellisModel TrellisSpec TrellisProofs FloatRate ConvProofs ConvCode ConvMore ConvTop LegacyProofs LegacyModel LegacyGen
  ViterbiModel ViterbiSpec LinksProofs TurboModel TurboSpec TurboProofs TurboMap TurboLinear.
Local Open Scope Z_scope.

Lemma lcoef_xor mem a b d : lcoef mem (Z.lxor a b) d = xorb (lcoef mem a d) (lcoef mem b d). Proof. apply Z.lxor_spec. Qed.
Lemma lsum_xor mem p a b : lsum mem p (Z.lxor a b) = xorb (lsum mem p a) (lsum mem p b).
Proof. unfold lsum. rewrite <- xsum_xor. apply xsum_ext. intros d _. rewrite lcoef_xor. destruct (lcoef mem p d), (lcoef mem a d), (lcoef mem b d); reflexivity. Qed.
Lemma eq_by_bits m a b : 0 <= a < 2 ^ Z.of_nat m -> 0 <= b < 2 ^ Z.of_nat m -> (forall i, (i < m)%nat -> Z.testbit a (Z.of_nat i) = Z.testbit b (Z.of_nat i)) -> a = b.
Proof.
  intros Ha Hb H. apply Z.bits_inj'. intros i Hi. destruct (Z.lt_ge_cases i (Z.of_nat m)) as [Hlt|Hge].
  - rewrite <- (Z2Nat.id i) by exact Hi. apply H. lia.
  - assert (Hz : forall x, 0 <= x < 2 ^ Z.of_nat m -> Z.testbit x i = false); [|rewrite !Hz by assumption; reflexivity].
    intros x Hx. destruct (Z.eq_dec x 0) as [->|Hne]; [apply Z.bits_0|]. apply Z.bits_above_log2; [lia|]. apply Z.log2_lt_pow2; [lia|]. apply Z.lt_le_trans with (2 ^ Z.of_nat m); [apply Hx|apply Z.pow_le_mono_r; lia].
Qed.
Lemma high_bit w : 0 <= w < 4 -> w / 2 = Z.b2z (Z.testbit w 1).
Proof. intros H. assert (w = 0 \/ w = 1 \/ w = 2 \/ w = 3) as [->|[->|[->| ->]]] by lia; reflexivity. Qed.

Lemma C35_streams_proof :
forall (tr1 tr2 : Trellis) (p : list nat) (msg : list Z),
    half_rate tr1 -> half_rate tr2 -> systematic tr1 -> (1 <= tr_M tr1)%nat -> (1 <= tr_M tr2)%nat -> bits msg -> is_perm (length msg) p ->
    Z.of_nat (length msg + tr_M tr1) * 2 < 2 ^ 49 -> Z.of_nat (length msg + tr_M tr2) * 2 < 2 ^ 49 ->
    let pmsg := map (fun i => nth i msg 0) p in
    (* the third stream is not cut to the message length: 2 * length msg + total_memory entries, zeros at the end *)
    turbo_encode msg tr1 tr2 p =
      Ok (msg, parity tr1 msg, parity tr2 (fed tr2 pmsg) ++ repeat 0 (2 * length msg + tr_M tr2 - length (fed tr2 pmsg))).
Proof.
  exact turbo_encode_spec.
Qed.

Lemma C35_memoryless_refuted_proof :
(* a memoryless first component (total_memory 0): the slice [0:-0] discards the message *)
  exists (tr : Trellis) (p : list nat) (msg : list Z), half_rate tr /\ systematic tr /\ bits msg /\ is_perm (length msg) p /\ msg = [1; 0; 1] /\
    turbo_encode msg tr tr p = Ok ([], [], []).
Proof.
  exists {| tr_k := 1; tr_n := 2; tr_M := 0; tr_next := [[0; 0]]; tr_out := [[0; 3]]; tr_rsc := true |}, [0; 1; 2]%nat, [1; 0; 1].
  split; [|split; [|split; [|split; [|split; [reflexivity|vm_compute; reflexivity]]]]].
  - split; [reflexivity|]. split; [reflexivity|]. split; [cbn; lia|]. split; [cbn; lia|]. cbn [tr_M tr_k tr_n tr_next tr_out]. intros s u Hs Hu. change (2 ^ Z.of_nat 0) with 1 in *. change (2 ^ Z.of_nat 1) with 2 in *.
    assert (s = 0) by lia. subst s. assert (u = 0 \/ u = 1) as [-> | ->] by lia; vm_compute; repeat split; congruence.
  - intros s u Hs Hu. cbn [tr_M tr_out] in *. change (2 ^ Z.of_nat 0) with 1 in *. assert (s = 0) by lia. subst s. assert (u = 0 \/ u = 1) as [-> | ->] by lia; reflexivity.
  - repeat constructor; unfold is_bit; lia.
  - split; [reflexivity|]. split; [repeat constructor; cbn; intuition lia|cbn; intuition lia].
Qed.

Lemma C35_constructors_proof :
forall (mem : nat) (g_row : list Z) (feedback : Z), (1 <= mem)%nat -> (2 <= length g_row)%nat ->
    (forall r : nat, (r < 2)%nat -> 0 <= nth r g_row 0 < 2 ^ Z.of_nat (mem + 1)) -> 2 ^ Z.of_nat mem <= feedback < 2 ^ Z.of_nat (mem + 1) ->
    exists tr : Trellis, make_trellis_int [mem] 2 [g_row] feedback true = Ok (tr, [upd g_row 0 feedback]) /\ half_rate tr /\ systematic tr /\ linear tr /\ tr_M tr = mem /\ tr_rsc tr = true.
Proof.
  intros mem g_row feedback Hm Hl Hg Hf. pose proof (Z.pow_pos_nonneg 2 (Z.of_nat mem) ltac:(lia) ltac:(lia)) as Hp.
  destruct (legacy_spec mem 2 g_row feedback true Hm ltac:(lia) Hg ltac:(lia)) as (tr & E & H1 & H2 & H3 & Hr & V & H).
  exists tr. split; [exact E|]. split; [split; [exact H1|split; [exact H2|exact V]]|].
  assert (Hc : lcoef mem feedback 0 = true).
  { unfold lcoef. rewrite Z.sub_0_r. apply Z.testbit_true; [lia|]. assert (Eq : feedback / 2 ^ Z.of_nat mem = 1); [|rewrite Eq; reflexivity].
    replace (Z.of_nat (mem + 1)) with (Z.of_nat mem + 1) in Hf by lia. rewrite Z.pow_add_r, Z.pow_1_r in Hf by lia.
    apply eq_sym. apply Z.div_unique with (feedback - 2 ^ Z.of_nat mem); lia. }
  split.
  - intros s u Hs Hu. rewrite H3 in Hs. destruct (H s u Hs Hu) as (R & _ & Ho & _). cbn in R. rewrite high_bit by exact R. specialize (Ho 0%nat ltac:(lia)). match type of Ho with Z.testbit _ ?i = _ => change i with 1 in Ho end. rewrite Ho.
    rewrite legacy_systematic by (apply nth_upd_eq; lia). rewrite Hc, andb_true_r. assert (u = 0 \/ u = 1) as [-> | ->] by lia; reflexivity.
  - split; [|split; [exact H3|exact Hr]]. intros s s' u u' Hs Hs' Hu Hu'. rewrite H3 in Hs, Hs'.
    assert (Hsx : 0 <= Z.lxor s s' < 2 ^ Z.of_nat mem) by (apply lxor_range; assumption).
    assert (Hux : 0 <= Z.lxor u u' < 2) by (assert (u = 0 \/ u = 1) as [-> | ->] by lia; assert (u' = 0 \/ u' = 1) as [-> | ->] by lia; cbn; lia).
    destruct (H s u Hs Hu) as (R1 & N1 & O1 & S1). destruct (H s' u' Hs' Hu') as (R2 & N2 & O2 & S2). destruct (H _ _ Hsx Hux) as (R3 & N3 & O3 & S3). split.
    + apply (eq_by_bits mem); [exact N3|apply lxor_range; assumption|]. intros i Hi. rewrite Z.lxor_spec.
      assert (Q : forall x, Z.testbit x (Z.of_nat i) = lcoef mem x (mem - i)) by (intros x; unfold lcoef; f_equal; lia).
      rewrite !Q, S1, S2, S3 by lia. destruct (mem - i =? 1)%nat; [|apply lcoef_xor]. rewrite lsum_xor, Z.lxor_spec. destruct (Z.testbit u 0), (Z.testbit u' 0), (lsum mem feedback s), (lsum mem feedback s'); reflexivity.
    + apply (eq_by_bits 2); [exact R3|apply lxor_range; assumption|]. intros i Hi. rewrite Z.lxor_spec.
      replace (Z.of_nat i) with (Z.of_nat 2 - 1 - Z.of_nat (1 - i)) by lia. rewrite O1, O2, O3 by lia. unfold legacy_out. rewrite !lsum_xor, Z.lxor_spec.
      set (a := lcoef mem _ 0). set (b1 := Z.testbit u 0). set (b2 := Z.testbit u' 0). repeat match goal with |- context [lsum mem ?p ?q] => generalize (lsum mem p q); intro end.
      destruct a, b1, b2; repeat match goal with b : bool |- _ => destruct b end; reflexivity.
Qed.

Lemma C35_matrix_constructor_proof :
(* the matrix constructor with first generator 1 *)
  forall (garbage : regs) (C : code) (rsc : bool), well_formed C -> kk C = 1%nat -> outs C = 2%nat -> (forall d, gcoef C 0 0 d = (d =? 0)%nat) ->
    exists tr : Trellis, trellis_of garbage C rsc = Ok tr /\ half_rate tr /\ systematic tr /\ linear tr /\ tr_M tr = MM C /\ tr_rsc tr = rsc.
Proof.
  intros garbage C rsc WF Hk Ho Hg. exists (the_trellis C rsc). split; [apply trellis_of_spec; exact WF|].
  pose proof (valid_the_trellis C WF rsc ltac:(lia)) as V. split; [split; [exact Hk|split; [exact Ho|exact V]]|].
  assert (Hu2 : forall u, 0 <= u < 2 -> 0 <= u < 2 ^ Z.of_nat (kk C)) by (rewrite Hk; intros u Hu; exact Hu).
  split; [|split; [|split; reflexivity]].
  - intros s u Hs Hu. change (tr_M (the_trellis C rsc)) with (MM C) in Hs. rewrite (entry_out C) by (try exact Hs; apply Hu2; exact Hu).
    pose proof (out_f_range C s u) as R. rewrite Ho in R. rewrite high_bit by exact R. pose proof (out_f_bit C s u 0 ltac:(lia)) as Hb. rewrite Ho in Hb. match type of Hb with Z.testbit _ ?i = _ => change i with 1 in Hb end. rewrite Hb.
    assert (X1 : forall x, xsum [x] = x) by (intros []; reflexivity). unfold line_sum. rewrite Hk. change (seq 0 1) with [0%nat]. cbn [map]. rewrite X1.
    rewrite (xsum_single _ _ 0%nat) by (try lia; intros j _ Hj; rewrite Hg; apply Nat.eqb_neq in Hj; rewrite Hj; apply andb_false_r).
    rewrite Hg. cbn [Nat.eqb]. rewrite andb_true_r. unfold cell. cbn [Nat.eqb]. unfold kk in Hk. rewrite Hk. cbn. assert (u = 0 \/ u = 1) as [-> | ->] by lia; reflexivity.
  - intros s s' u u' Hs Hs' Hu Hu'. change (tr_M (the_trellis C rsc)) with (MM C) in *.
    assert (Hsx : 0 <= Z.lxor s s' < 2 ^ Z.of_nat (MM C)) by (apply lxor_range; assumption).
    assert (Hux : 0 <= Z.lxor u u' < 2) by (assert (u = 0 \/ u = 1) as [-> | ->] by lia; assert (u' = 0 \/ u' = 1) as [-> | ->] by lia; cbn; lia).
    rewrite !(entry_next C), !(entry_out C) by (try assumption; apply Hu2; assumption). split; [apply next_f_xor; exact WF|apply out_f_xor; exact WF].
Qed.

Lemma C36_posterior_proof :
forall (tr : Trellis) (v : R) (sys par L : list R) (decode : bool), half_rate tr -> (length sys <= length par)%nat -> length L = length sys -> (0 < v)%R ->
    let N := length sys in
    exists (L_ext : list R) (decoded : list Z), map_decode sys par tr v L decode = Ok (L_ext, decoded) /\ length L_ext = N /\ length decoded = N /\
      forall t, (t < N)%nat ->
        let e0 := evidence tr v sys par L N t 0 in let e1 := evidence tr v sys par L N t 1 in
        (0 < e0)%R /\ (0 < e1)%R /\ nth t L_ext 0%R = ln (e1 / e0) /\
        ((nth t decoded 0 = 1 /\ decode = true /\ (e0 < e1)%R) \/ (nth t decoded 0 = 0 /\ (decode = true -> (e1 <= e0)%R))).
Proof.
  intros tr v sys par L decode HR Hp HL _ N. destruct (map_decode_ok tr v sys par L HR N eq_refl Hp HL decode) as (Lx & dec & E & H1 & H2 & H3 & H4).
  exists Lx, dec. split; [exact E|]. split; [exact H1|]. split; [exact H2|]. intros t Ht e0 e1. unfold e0, e1.
  assert (HE : forall b, is_bit b -> (0 < evidence tr v sys par L N t b)%R).
  { intros b Hb. rewrite (evidence_X tr v sys par L HR N eq_refl Hp HL) by assumption. apply Rmult_lt_0_compat; [apply pr_pos|apply (X_pos tr v sys par L HR N eq_refl Hp HL); exact Hb]. }
  split; [apply HE; left; reflexivity|]. split; [apply HE; right; reflexivity|]. rewrite H3, H4 by exact Ht. split; [apply (lappr_eq tr v sys par L HR N eq_refl Hp HL); exact Ht|].
  pose proof (lappr_sign tr v sys par L HR N eq_refl Hp HL t Ht) as Hs. destruct decode; [|right; split; [reflexivity|discriminate]].
  destruct (Rlt_dec _ _) as [Hlt|Hge]; [left; split; [reflexivity|split; [reflexivity|apply Hs; exact Hlt]]|right; split; [reflexivity|]]. intros _. apply Rnot_lt_le. intros Hc. apply Hge, Hs, Hc.
Qed.

Lemma weight_dist tr v n : (0 < v)%R -> forall us s sys par, length us = n -> weight_from tr v sys par (repeat 0%R n) s us = ((1 / 2) ^ n * exp (- sq_dist (words tr s us) sys par / (2 * v)))%R.
Proof.
  intros Hv. induction n as [|n IH]; intros [|u us] s sys par Hl; try discriminate Hl.
  - cbn [weight_from words sq_dist pow]. replace (- 0 / (2 * v))%R with 0%R by (field; lra). rewrite exp_0. ring.
  - injection Hl as Hl. cbn [weight_from words sq_dist repeat hd tl]. change ((1 / 2) ^ S n)%R with (1 / 2 * (1 / 2) ^ n)%R. rewrite (IH us _ _ _ Hl). unfold gauss. set (a := IZR (2 * (entry (tr_out tr) s u / 2) - 1)). set (b := IZR (2 * (entry (tr_out tr) s u mod 2) - 1)).
    assert (P : prior 0 u = (1 / 2)%R) by (unfold prior; rewrite exp_0; destruct (u =? 1); field). rewrite P. set (D := sq_dist _ _ _).
    replace (- ((hd 0 sys - a) ^ 2 + (hd 0 par - b) ^ 2 + D) / (2 * v))%R with (- (hd 0 sys - a) ^ 2 / (2 * v) + - (hd 0 par - b) ^ 2 / (2 * v) + - D / (2 * v))%R by (field; lra).
    rewrite !exp_plus. ring.
Qed.
Lemma all_bits_len n : length (all_bits n) = (2 ^ n)%nat.
Proof. induction n as [|n IH]; [reflexivity|]. cbn [all_bits]. rewrite app_length, !map_length, IH. cbn [Nat.pow]. lia. Qed.
Lemma half_count n : forall t b, (t < n)%nat -> is_bit b -> length (filter (fun us => nth t us 0 =? b) (all_bits n)) = (2 ^ (n - 1))%nat.
Proof.
  induction n as [|n IH]; intros t b Ht Hb; [lia|]. cbn [all_bits]. rewrite filter_app, app_length, !filter_map_c, !map_length. replace (S n - 1)%nat with n by lia. destruct t as [|t].
  - cbn [nth]. destruct Hb as [-> | ->].
    + rewrite filter_all_true by reflexivity. rewrite filter_all_false by reflexivity. rewrite all_bits_len. cbn [length]. lia.
    + rewrite filter_all_false by reflexivity. rewrite filter_all_true by reflexivity. rewrite all_bits_len. cbn [length]. lia.
  - cbn [nth]. rewrite !IH by (try assumption; lia). destruct n as [|n]; [lia|]. cbn [Nat.sub Nat.pow]. rewrite Nat.sub_0_r. lia.
Qed.
Lemma total_lt {A} (f : A -> R) c l : l <> [] -> (forall x, In x l -> (f x < c)%R) -> (total f l < INR (length l) * c)%R.
Proof.
  intros Hne H. destruct l as [|a l]; [congruence|]. clear Hne. revert a H. induction l as [|b l IH]; intros a H.
  - rewrite total_cons, total_nil. cbn [length INR]. pose proof (H a (or_introl eq_refl)). lra.
  - rewrite total_cons. change (length (a :: b :: l)) with (S (length (b :: l))). rewrite S_INR. pose proof (H a (or_introl eq_refl)). specialize (IH b (fun x Hx => H x (or_intror Hx))). lra.
Qed.
Lemma total_ge {A} (f : A -> R) l x : In x l -> (forall y, In y l -> (0 <= f y)%R) -> (f x <= total f l)%R.
Proof.
  induction l as [|a l IH]; intros Hx H; [destruct Hx|]. rewrite total_cons. pose proof (H a (or_introl eq_refl)) as Ha.
  assert (Hl : (0 <= total f l)%R). { clear IH Hx. induction l as [|b l IH]; [rewrite total_nil; lra|]. rewrite total_cons. pose proof (H b (or_intror (or_introl eq_refl))). enough (0 <= total f l)%R by lra. apply IH. intros y [Hy|Hy]; apply H; [left; exact Hy|right; right; exact Hy]. }
  destruct Hx as [<-|Hx]; [lra|]. specialize (IH Hx (fun y Hy => H y (or_intror Hy))). lra.
Qed.

Lemma C36_corrects_proof :
(* equal priors: whenever the received values are closer to the message's code word than to every other one, by a margin of
     more than 2 v (N - 1) ln 2 in squared distance, the MAP decoder returns the message (signs of received values may be wrong) *)
  forall (tr : Trellis) (v : R) (sys par : list R) (msg : list Z), half_rate tr -> (length sys <= length par)%nat -> length msg = length sys -> bits msg -> (0 < v)%R ->
    (forall us, length us = length msg -> bits us -> us <> msg -> (sq_dist (words tr 0 us) sys par > sq_dist (words tr 0 msg) sys par + 2 * v * INR (length msg - 1) * ln 2)%R) ->
    exists L_ext, map_decode sys par tr v (repeat 0%R (length msg)) true = Ok (L_ext, msg).
Proof.
  intros tr v sys par msg HR Hp Hl Hb Hv Hd. destruct (C36_posterior_proof tr v sys par (repeat 0%R (length msg)) true HR Hp ltac:(rewrite repeat_length; exact Hl) Hv) as (Lx & dec & E & _ & LD & HP). cbv zeta in HP.
  exists Lx. rewrite E. f_equal. f_equal. apply (nth_ext _ _ 0 0); [lia|]. intros t Ht. rewrite LD in Ht. destruct (HP t Ht) as (_ & _ & _ & D). rewrite <- Hl in *. clear HP.
  set (N := length msg) in *. assert (HN : (t < N)%nat) by lia. set (w := weight tr v sys par (repeat 0%R N)) in *.
  assert (Ex : forall us, length us = N -> w us = ((1 / 2) ^ N * exp (- sq_dist (words tr 0 us) sys par / (2 * v)))%R) by (intros us Hus; apply weight_dist; assumption).
  assert (Hw : forall us, length us = N -> (0 < w us)%R). { intros us Hus. rewrite (Ex us Hus). apply Rmult_lt_0_compat; [apply pow_lt; lra|apply exp_pos]. }
  assert (Hi : forall us, length us = N -> bits us -> us <> msg -> (w us < w msg * / 2 ^ (N - 1))%R).
  { intros us Hus Hbu Hne. rewrite (Ex us Hus), (Ex msg eq_refl). specialize (Hd us Hus Hbu Hne). rewrite Rmult_assoc. apply Rmult_lt_compat_l; [apply pow_lt; lra|].
    replace (/ 2 ^ (N - 1))%R with (exp (- (INR (N - 1) * ln 2))). 2:{ rewrite exp_Ropp. f_equal. rewrite <- (exp_ln 2) at 2 by lra. clear. induction (N - 1)%nat as [|k IH]; [cbn [INR pow]; rewrite Rmult_0_l; apply exp_0|]. cbn [pow]. rewrite <- IH, S_INR, Rmult_plus_distr_r, exp_plus, Rmult_1_l. ring. }
    rewrite <- exp_plus. apply exp_increasing. replace (- sq_dist (words tr 0 msg) sys par / (2 * v) + - (INR (N - 1) * ln 2))%R with (- (sq_dist (words tr 0 msg) sys par + 2 * v * INR (N - 1) * ln 2) / (2 * v))%R by (field; lra).
    unfold Rdiv. apply Rmult_lt_compat_r; [apply Rinv_0_lt_compat; lra|lra]. }
  pose proof (bits_nth msg t Hb) as Hm.
  assert (G : forall b b', is_bit b' -> nth t msg 0 = b -> b <> b' -> (evidence tr v sys par (repeat 0%R N) N t b' < evidence tr v sys par (repeat 0%R N) N t b)%R).
  { intros b b' Hb' Hmb Hne. unfold evidence. fold w. apply Rlt_le_trans with (w msg).
    - set (l := filter _ _). assert (Ll : length l = (2 ^ (N - 1))%nat) by (apply half_count; assumption). replace (w msg) with (INR (length l) * (w msg * / 2 ^ (N - 1)))%R.
      + apply total_lt; [intros F; rewrite F in Ll; cbn [length] in Ll; symmetry in Ll; apply Nat.pow_nonzero in Ll; [exact Ll|lia]|]. intros us Hus. apply filter_In in Hus. destruct Hus as [H1 H2]. apply all_bits_in in H1. destruct H1 as [H1 H3]. apply Hi; try assumption. intros ->. apply Z.eqb_eq in H2. congruence.
      + rewrite Ll, pow_INR. cbn [INR]. replace (1 + 1)%R with 2%R by lra. field. apply pow_nonzero. lra.
    - apply (total_ge w); [apply filter_In; split; [apply all_bits_in; split; [reflexivity|exact Hb]|apply Z.eqb_eq; exact Hmb]|]. intros us Hus. apply filter_In in Hus. destruct Hus as [H1 _]. apply all_bits_in in H1. apply Rlt_le, Hw, H1. }
  destruct D as [(D1 & _ & D2)|(D1 & D2)]; rewrite D1; destruct Hm as [Hm|Hm]; rewrite Hm; try reflexivity; exfalso.
  - specialize (G 0 1 ltac:(right; reflexivity) Hm ltac:(lia)). lra.
  - specialize (G 1 0 ltac:(left; reflexivity) Hm ltac:(lia)). specialize (D2 eq_refl). lra.
Qed.

Lemma C36_prior_length_proof :
forall (tr : Trellis) (v : R) (sys par L : list R) (decode : bool), length L <> length sys -> length L <> 1%nat -> map_decode sys par tr v L decode = Err ValueError.
Proof.
  intros tr v sys par L decode H1 H2. unfold map_decode, broadcast. rewrite map_length. replace (length L =? length sys)%nat with false by (symmetry; apply Nat.eqb_neq; exact H1).
  destruct L as [|a [|b L]]; [reflexivity|cbn in H2; lia|reflexivity].
Qed.

Lemma C36_single_prior_proof :
(* a single a-priori value is not spread over the symbols: whenever the call with that value repeated succeeds, the call with the single
     value raises IndexError *)
  forall (tr : Trellis) (v l : R) (sys par : list R) (decode : bool) x, (2 <= length sys)%nat -> map_decode sys par tr v (repeat l (length sys)) decode = Ok x -> map_decode sys par tr v [l] decode = Err IndexError.
Proof.
  intros tr v l sys par decode x H2. unfold map_decode. assert (MR : forall n, map (fun l0 => (1 / (1 + exp l0))%R) (repeat l n) = repeat (1 / (1 + exp l))%R n) by (induction n as [|n IH]; [reflexivity|]; cbn [repeat map]; rewrite IH; reflexivity). rewrite MR.
  assert (B1 : forall p n, broadcast n (repeat p n) = Ok (repeat p n)) by (intros p n; unfold broadcast; rewrite repeat_length, Nat.eqb_refl; reflexivity). rewrite B1.
  assert (B2 : broadcast (length sys) (map (fun l0 => (1 / (1 + exp l0))%R) [l]) = Ok (repeat (1 / (1 + exp l))%R (length sys))) by (unfold broadcast; cbn [map length]; destruct (Nat.eqb_spec 1 (length sys)); [lia|reflexivity]). rewrite B2. cbn [bind].
  destruct (backward_recursion _ _ _ _ _ _ _) as [[cols probs]|]; [|discriminate]. cbn [bind]. destruct (length sys) as [|[|n]]; [lia|lia|]. cbn [seq foldM]. set (st0 := (upd _ 0%nat 1%R, _, _)). set (pr := [_; _]).
  assert (E0 : forall st, forward_step tr decode [l] pr cols probs st 0 = forward_step tr decode (repeat l (S (S n))) pr cols probs st 0) by (intros [[a b] c]; reflexivity). rewrite E0. destruct (forward_step _ _ _ _ _ _ st0 0) as [[[f0 le] db]|]; [|discriminate]. cbn [bind].
  unfold forward_step at 1. destruct (py_get cols _) as [bn|] eqn:EC; [|discriminate]. cbn [bind]. destruct (py_get probs _) as [bps|] eqn:EP; [|discriminate]. cbn [bind]. destruct (forward_column _ _ _ _ _ _) as [[f1 app]|] eqn:EF; [|discriminate]. intros _.
  unfold forward_step at 1. rewrite EC. cbn [bind]. rewrite EP. cbn [bind]. rewrite EF. reflexivity.
Qed.

Lemma C36_turbo_noiseless_proof :
(* values whose signs do not contradict the transmitted streams, with non-zero systematic values, are decoded to
     the message: for every linear systematic rate 1/2 trellis, interleaver, noise variance and iteration count *)
  forall (tr : Trellis) (p : list nat) (msg s p1 p2 : list Z) (sys par1 par2 : list R) (v : R) (iterations : nat) (L_int : option (list R)),
    half_rate tr -> systematic tr -> linear tr -> (1 <= tr_M tr)%nat -> bits msg -> is_perm (length msg) p -> Z.of_nat (length msg + tr_M tr) * 2 < 2 ^ 49 ->
    turbo_encode msg tr tr p = Ok (s, p1, p2) ->
    Forall2 carries sys s -> Forall2 agrees par1 p1 -> Forall2 agrees par2 p2 ->
    match L_int with None => True | Some l => Forall2 agrees l msg end -> (0 < v)%R -> (1 <= iterations)%nat ->
    turbo_decode sys par1 par2 tr v iterations p L_int = Ok msg.
Proof.
  intros tr p msg s p1 p2 sys par1 par2 v n L_int HR HS HLIN HM Hb Hp Hsz E Hs H1 H2 HL Hv Hn.
  rewrite (turbo_encode_spec tr tr p msg HR HR HS HM HM Hb Hp Hsz Hsz) in E. injection E as <- <- <-.
  assert (HA : forall (xs : list R) bs, Forall2 agrees xs bs -> length xs = length bs /\ forall i, (i < length bs)%nat -> agrees (nth i xs 0%R) (nth i bs 0)).
  { intros xs bs H. induction H as [|x b xs bs H HF [IH1 IH2]]; [split; [reflexivity|intros i Hi; cbn in Hi; lia]|]. split; [cbn; lia|]. intros [|i] Hi; [exact H|]. apply IH2. cbn in Hi. lia. }
  apply HA in H1. apply HA in H2. destruct H1 as [Hl1 H1]. destruct H2 as [Hl2 H2].
  set (pmsg := map (fun i => nth i msg 0) p) in *. pose proof Hp as (Hpl & _). assert (Hpml : length pmsg = length msg) by (unfold pmsg; rewrite map_length; exact Hpl).
  assert (Hlp1 : length (parity tr msg) = length msg) by (unfold parity; rewrite map_length; apply words_length).
  assert (Hlp2 : length (parity tr pmsg) = length msg) by (unfold parity; rewrite map_length, words_length; exact Hpml).
  assert (Hpre : exists z, parity tr (fed tr pmsg) ++ repeat 0 (length msg + (length msg + 0) + tr_M tr - length (fed tr pmsg)) = parity tr pmsg ++ z).
  { unfold fed. destruct (tr_rsc tr); [eexists; reflexivity|]. unfold parity. rewrite words_app, map_app, <- app_assoc. eexists. reflexivity. }
  destruct Hpre as [z Hz]. rewrite Hz in Hl2, H2. rewrite app_length in Hl2.
  apply turbo_decode_ok; try assumption; try lia.
  - intros i Hi. apply H1. lia.
  - intros i Hi. specialize (H2 i ltac:(rewrite app_length; lia)). rewrite app_nth1 in H2 by lia. exact H2.
  - destruct L_int as [l|]; [|exact I]. apply HA in HL. exact HL.
Qed.

Lemma C36_no_iteration_proof :
forall (tr : Trellis) (p : list nat) (sys par1 par2 : list R) (v : R) (L_int : option (list R)),
    (forall i, In i p -> (i < length sys)%nat) -> turbo_decode sys par1 par2 tr v 0 p L_int = Err UnboundLocalError.
Proof.
  intros tr p sys par1 par2 v L_int H. unfold turbo_decode. rewrite (interlv_perm_ok 0%R) by exact H. reflexivity.
Qed.
