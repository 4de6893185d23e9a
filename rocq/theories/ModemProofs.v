(* Modem: construction, modulation, hard and soft demodulation. *)
From Coq Require Import Permutation.
From Verif Require Import Base UtilModel UtilProofs Cplx ModemModel GrayProofs.
Open Scope Z_scope.

Lemma log2_exact_pow : forall b, log2_exact (2 ^ b) = Some b.
Proof. intros b. unfold log2_exact. rewrite Nat.log2_pow2 by lia. cbv zeta. rewrite Nat.eqb_refl. reflexivity. Qed.
Lemma log2_exact_Some : forall n b, log2_exact n = Some b -> n = (2 ^ b)%nat.
Proof. intros n b. unfold log2_exact. cbv zeta. destruct (Nat.eqb_spec (2 ^ Nat.log2 n) n) as [E|E]; [|discriminate]. intros H. injection H as <-. symmetry. exact E. Qed.
Lemma log2_exact_None : forall n, log2_exact n = None -> forall b, n <> (2 ^ b)%nat.
Proof. intros n H b E. subst n. rewrite log2_exact_pow in H. discriminate. Qed.

Lemma Zpow_nat : forall b, Z.of_nat (2 ^ b) = 2 ^ Z.of_nat b.
Proof. intros b. rewrite Nat2Z.inj_pow. reflexivity. Qed.

Lemma pow2_pos : forall b, (1 <= 2 ^ b)%nat.
Proof. intros b. pose proof (Nat.pow_nonzero 2 b ltac:(lia)). lia. Qed.

(* ---------------------------------------------------------------- argmin *)
Lemma argmin_from_spec : forall l best bi pre, (bi < length pre)%nat -> nth bi pre 0%R = best -> (forall j, (j < length pre)%nat -> (best <= nth j pre 0)%R) -> (forall j, (j < bi)%nat -> (best < nth j pre 0)%R) ->
  let k := argmin_from best bi (length pre) l in
  (k < length (pre ++ l))%nat /\ (forall j, (j < length (pre ++ l))%nat -> (nth k (pre ++ l) 0 <= nth j (pre ++ l) 0)%R) /\ (forall j, (j < k)%nat -> (nth k (pre ++ l) 0 < nth j (pre ++ l) 0)%R).
Proof.
  induction l as [|x l IH]; intros best bi pre Hb Hn Hmin Hfirst k.
  - unfold k. cbn [argmin_from]. rewrite app_nil_r. rewrite Hn. auto.
  - unfold k. cbn [argmin_from]. assert (EQ : pre ++ x :: l = (pre ++ [x]) ++ l) by (rewrite <- app_assoc; reflexivity). rewrite EQ.
    assert (HL : S (length pre) = length (pre ++ [x])) by (rewrite app_length; cbn; lia). rewrite HL.
    assert (NX : nth (length pre) (pre ++ [x]) 0%R = x) by (rewrite app_nth2, Nat.sub_diag by lia; reflexivity).
    assert (NP : forall j, (j < length pre)%nat -> nth j (pre ++ [x]) 0%R = nth j pre 0%R) by (intros j Hj; apply app_nth1; exact Hj).
    destruct (Rlt_dec x best) as [Hlt|Hge]; apply IH; try (rewrite <- HL; lia).
    + exact NX.
    + intros j Hj. destruct (Nat.eq_dec j (length pre)) as [->|Hne]; [rewrite NX; lra|]. rewrite NP by lia. specialize (Hmin j ltac:(lia)). lra.
    + intros j Hj. rewrite NP by lia. specialize (Hmin j Hj). lra.
    + rewrite NP by exact Hb. exact Hn.
    + intros j Hj. destruct (Nat.eq_dec j (length pre)) as [->|Hne]; [rewrite NX; lra|]. rewrite NP by lia. apply Hmin. lia.
    + intros j Hj. rewrite NP by lia. apply Hfirst. exact Hj.
Qed.

Lemma argmin_ok : forall l, l <> [] -> exists k, argmin l = Ok k /\ (k < length l)%nat /\ (forall j, (j < length l)%nat -> (nth k l 0 <= nth j l 0)%R) /\ (forall j, (j < k)%nat -> (nth k l 0 < nth j l 0)%R).
Proof.
  intros [|x l] H; [congruence|]. exists (argmin_from x 0 1 l). split; [reflexivity|].
  pose proof (argmin_from_spec l x 0 [x] ltac:(cbn; lia) eq_refl ltac:(intros j Hj; cbn in Hj; replace j with 0%nat by lia; cbn; lra) ltac:(intros; lia)) as S. cbv zeta in S. cbn [length app] in S. exact S.
Qed.

(* ---------------------------------------------------------------- construction *)
Definition wf (md : modem) : Prop := length (points md) = (2 ^ num_bits md)%nat /\ size_m md = length (points md) /\
  energy md = (Rsum (map Cnorm2 (points md)) / INR (length (points md)))%R.

Lemma signal_power_ok : forall s, s <> [] -> signal_power s = Ok (Rsum (map Cnorm2 s) / INR (length s))%R.
Proof.
  intros s H. destruct s as [|x s]; [congruence|]. unfold signal_power. do 2 f_equal. f_equal. apply map_ext. intros y. apply Cabs_sqr.
Qed.

Lemma set_ok : forall v b, length v = (2 ^ b)%nat -> exists md, set_constellation v = Ok md /\ points md = v /\ num_bits md = b /\ wf md.
Proof.
  intros v b H. unfold set_constellation. pose proof (pow2_pos b) as Hp. destruct v as [|x v]; [cbn in H; lia|]. rewrite H, log2_exact_pow, signal_power_ok by discriminate. cbn [bind].
  eexists. split; [reflexivity|]. cbn [points num_bits]. split; [reflexivity|]. split; [reflexivity|]. unfold wf. cbn [points num_bits size_m energy]. rewrite H. auto.
Qed.

Lemma gray_list_facts : forall b, NoDup (gray_sequence b) /\ length (gray_sequence b) = (2 ^ b)%nat /\ (forall x, In x (gray_sequence b) -> 0 <= x < Z.of_nat (length (gray_sequence b))) /\
  forall i, (i < 2 ^ b)%nat -> nth i (gray_sequence b) 0 = gray (Z.of_nat i).
Proof.
  intros b. rewrite gray_sequence_map. assert (HL : length (map (fun k => gray (Z.of_nat k)) (seq 0 (2 ^ b))) = (2 ^ b)%nat) by (rewrite map_length, seq_length; reflexivity).
  split; [|split; [exact HL|split]].
  - assert (G : forall l, NoDup l -> (forall x, In x l -> (x < 2 ^ b)%nat) -> NoDup (map (fun k => gray (Z.of_nat k)) l)).
    { induction l as [|x l IH]; intros ND Hr; [constructor|]. inversion ND; subst. cbn [map]. constructor; [|apply IH; [assumption|intros y Hy; apply Hr; right; exact Hy]].
      intros Hin. apply in_map_iff in Hin as (y & Ey & Hy). apply (gray_inj (Z.of_nat b)) in Ey; [|lia| |].
      - apply Nat2Z.inj in Ey. subst y. contradiction.
      - specialize (Hr y (or_intror Hy)). rewrite <- Zpow_nat. lia.
      - specialize (Hr x (or_introl eq_refl)). rewrite <- Zpow_nat. lia. }
    apply G; [apply seq_NoDup|]. intros x Hx. apply in_seq in Hx. lia.
  - intros x Hx. rewrite HL. apply in_map_iff in Hx as (k & <- & Hk). apply in_seq in Hk. rewrite Zpow_nat. apply gray_range; [lia|]. rewrite <- Zpow_nat. lia.
  - intros i Hi. rewrite (nth_indep _ 0 (gray (Z.of_nat 0))) by (rewrite HL; exact Hi). rewrite (map_nth (fun k => gray (Z.of_nat k))). rewrite seq_nth by exact Hi. reflexivity.
Qed.

Lemma init_gray : forall c b, length c = (2 ^ b)%nat -> (1 <= b)%nat ->
  exists md, modem_init c true = Ok md /\ num_bits md = b /\ wf md /\ Permutation (points md) c /\
    forall i, (i < 2 ^ b)%nat -> (Z.to_nat (gray (Z.of_nat i)) < 2 ^ b)%nat /\ nth (Z.to_nat (gray (Z.of_nat i))) (points md) C0 = nth i c C0.
Proof.
  intros c b H Hb. unfold modem_init. pose proof (pow2_pos b) as Hp. destruct c as [|x c']; [cbn in H; lia|]. set (c := x :: c') in *. rewrite H, log2_exact_pow. destruct b as [|b']; [lia|]. set (b := S b') in *.
  destruct (gray_list_facts b) as (ND & HL & HR & HN). destruct (argsort_inverse _ ND HR) as (A1 & A2 & A3). rewrite HL in *.
  destruct (set_ok (map (fun i => nth i c C0) (argsort (gray_sequence b))) b) as (md & E & EP & EB & HW); [rewrite map_length; exact A1|].
  unfold c at 1. exists md. split; [exact E|]. split; [exact EB|]. split; [exact HW|]. split.
  - rewrite EP. rewrite (Permutation_map (fun i => nth i c C0) A2). replace (map (fun i => nth i c C0) (seq 0 (2 ^ b))) with c; [reflexivity|].
    apply (nth_ext _ _ C0 C0); [rewrite map_length, seq_length; exact H|]. intros i Hi. rewrite (nth_indep (map _ _) C0 ((fun i => nth i c C0) 0%nat)) by (rewrite map_length, seq_length; lia). rewrite (map_nth (fun i => nth i c C0)). rewrite seq_nth by lia. reflexivity.
  - intros i Hi. assert (Hg := gray_range (Z.of_nat b) (Z.of_nat i) ltac:(lia) ltac:(rewrite <- Zpow_nat; lia)). rewrite <- Zpow_nat in Hg.
    assert (Hv : (Z.to_nat (gray (Z.of_nat i)) < 2 ^ b)%nat) by lia. split; [exact Hv|]. rewrite EP.
    rewrite (nth_indep _ C0 ((fun i => nth i c C0) 0%nat)) by (rewrite map_length, A1; exact Hv). rewrite (map_nth (fun i => nth i c C0)). f_equal.
    destruct (A3 _ Hv) as (B1 & B2). rewrite HN in B2 by exact B1. rewrite Z2Nat.id in B2 by lia. apply (gray_inj (Z.of_nat b)) in B2; [lia|lia| |]; rewrite <- Zpow_nat; lia.
Qed.

Lemma init_plain : forall c b, length c = (2 ^ b)%nat -> exists md, modem_init c false = Ok md /\ num_bits md = b /\ wf md /\ points md = c.
Proof. intros c b H. destruct (set_ok c b H) as (md & E & EP & EB & HW). exists md. auto. Qed.

Lemma init_bad_length : forall c r, c <> [] -> (forall b, length c <> (2 ^ b)%nat) -> modem_init c r = Err ValueError.
Proof.
  intros c r Hne H. assert (E : log2_exact (length c) = None). { destruct (log2_exact (length c)) eqn:E; [|reflexivity]. apply log2_exact_Some in E. exfalso. eapply H, E. }
  unfold modem_init, set_constellation. destruct c; [congruence|]. rewrite E. destruct r; reflexivity.
Qed.

Lemma set_wf : forall v md, set_constellation v = Ok md -> wf md /\ points md = v.
Proof.
  intros v md E. unfold set_constellation in E. destruct v as [|x v]; [discriminate|]. destruct (log2_exact (length (x :: v))) as [b|] eqn:El; [|discriminate]. apply log2_exact_Some in El.
  destruct (set_ok (x :: v) b El) as (md' & E' & EP & EB & HW). unfold set_constellation in E'. rewrite El, log2_exact_pow in E'. rewrite El, E' in E. injection E as <-. auto.
Qed.
Lemma init_wf : forall c r md, modem_init c r = Ok md -> wf md.
Proof.
  intros c r md E. unfold modem_init in E. destruct r; [|apply (set_wf c), E]. destruct c as [|x c]; [discriminate|]. destruct (log2_exact _) as [[|b]|]; try discriminate. eapply set_wf, E.
Qed.

(* ---------------------------------------------------------------- modulation *)
Definition group (md : modem) (bs : list Z) (k : nat) : list Z := slice bs (k * num_bits md) (k * num_bits md + num_bits md).
Definition label (md : modem) (bs : list Z) (k : nat) : nat := Z.to_nat (bitarray2dec (group md bs k)).
Definition count (md : modem) (bs : list Z) : nat := ((length bs + num_bits md - 1) / num_bits md)%nat.

Lemma bits_slice : forall l a b, bits l -> bits (slice l a b).
Proof.
  intros l a b H. unfold slice, bits in *. rewrite Forall_forall in *. intros x Hx. apply H. rewrite <- (firstn_skipn a l), <- (firstn_skipn (b - a) (skipn a l)). apply in_or_app; right; apply in_or_app; left; exact Hx.
Qed.
Lemma group_length : forall md bs k, (length (group md bs k) <= num_bits md)%nat.
Proof. intros md bs k. unfold group, slice. rewrite firstn_length. lia. Qed.
Lemma label_range : forall md bs k, wf md -> bits bs -> (label md bs k < length (points md))%nat /\ Z.of_nat (label md bs k) = bitarray2dec (group md bs k).
Proof.
  intros md bs k (HW & _) Hb. pose proof (bitarray2dec_range (group md bs k) (bits_slice bs _ _ Hb)) as Hr. pose proof (group_length md bs k) as Hl. unfold label. split; [|lia].
  rewrite HW. apply Nat2Z.inj_lt. rewrite Zpow_nat. rewrite Z2Nat.id by lia. assert (2 ^ Z.of_nat (length (group md bs k)) <= 2 ^ Z.of_nat (num_bits md)) by (apply Z.pow_le_mono_r; lia). lia.
Qed.

Lemma modulate_ok : forall md bs, wf md -> (1 <= num_bits md)%nat -> bits bs -> bs <> [] ->
  modulate md bs = Ok (map (fun k => nth (label md bs k) (points md) C0) (seq 0 (count md bs))).
Proof.
  intros md bs HW Hn Hb Hne. unfold modulate. replace (num_bits md =? 0)%nat with false by (symmetry; apply Nat.eqb_neq; lia). destruct bs as [|x bs']; [congruence|]. set (bs := x :: bs') in *.
  apply mapM_Ok. intros k _. fold (group md bs k). destruct (label_range md bs k HW Hb) as (H1 & H2). rewrite <- H2. apply py_get_ok. exact H1.
Qed.

(* ---------------------------------------------------------------- hard demodulation *)
Lemma hard_ok : forall md y, wf md -> exists l, hard_index md y = Ok l /\ (l < length (points md))%nat /\
  (forall j, (j < length (points md))%nat -> (Cabs (y - nth l (points md) C0)%C <= Cabs (y - nth j (points md) C0)%C)%R) /\
  (forall j, (j < l)%nat -> (Cabs (y - nth l (points md) C0)%C < Cabs (y - nth j (points md) C0)%C)%R).
Proof.
  intros md y (HW & _). pose proof (pow2_pos (num_bits md)). unfold hard_index. set (d := map (fun s => Cabs (y - s)%C) (points md)).
  assert (HL : length d = length (points md)) by apply map_length. destruct (argmin_ok d) as (k & E & K1 & K2 & K3); [intros E; rewrite E in HL; cbn in HL; lia|].
  assert (N : forall j, (j < length (points md))%nat -> nth j d 0%R = Cabs (y - nth j (points md) C0)%C).
  { intros j Hj. unfold d. rewrite (nth_indep _ 0%R ((fun s => Cabs (y - s)%C) C0)) by (rewrite map_length; exact Hj). apply (map_nth (fun s => Cabs (y - s)%C)). }
  rewrite HL in K1, K2. exists k. split; [exact E|]. split; [exact K1|]. split; intros j Hj; rewrite <- !N by lia; auto.
Qed.

Lemma hard_exact : forall md l, wf md -> NoDup (points md) -> (l < length (points md))%nat -> hard_index md (nth l (points md) C0) = Ok l.
Proof.
  intros md l HW ND Hl. destruct (hard_ok md (nth l (points md) C0) HW) as (k & E & K1 & K2 & _). rewrite E. f_equal. specialize (K2 l Hl).
  assert (Z0 : forall a : C, Cabs (a - a)%C = 0%R) by (intros a; apply Cabs_0; creal).
  rewrite Z0 in K2. pose proof (Cabs_nonneg (nth l (points md) C0 - nth k (points md) C0)%C) as P. assert (Ez : Cabs (nth l (points md) C0 - nth k (points md) C0)%C = 0%R) by lra.
  apply Cabs_0 in Ez. symmetry. apply (NoDup_nth (points md) C0); try assumption. apply C_ext; [apply (f_equal re) in Ez|apply (f_equal im) in Ez]; cbn in Ez; lra.
Qed.

Lemma dec_arr : forall ls w, (forall l, In l ls -> (l < 2 ^ w)%nat) -> dec2bitarray_arr (map Z.of_nat ls) w = Ok (concat (map (fun l => bits_msb w (Z.of_nat l)) ls)).
Proof.
  intros ls w H. unfold dec2bitarray_arr. rewrite (mapM_Ok _ (fun n => bits_msb w n)).
  - cbn [bind]. rewrite map_map. reflexivity.
  - intros a Ha. apply in_map_iff in Ha as (l & <- & Hl). apply decimal2bitarray_ok. specialize (H l Hl). rewrite <- Zpow_nat. lia.
Qed.

Lemma b2d_zeros : forall z g, bitarray2dec (repeat 0 z ++ g) = bitarray2dec g.
Proof. induction z as [|z IH]; intros g; [reflexivity|]. cbn [repeat app]. rewrite bitarray2dec_cons, IH. lia. Qed.

Lemma bits_msb_short : forall w g, bits g -> (length g <= w)%nat -> bits_msb w (bitarray2dec g) = repeat 0 (w - length g) ++ g.
Proof.
  intros w g Hg Hl. rewrite <- (b2d_zeros (w - length g) g). replace w with (length (repeat 0 (w - length g) ++ g)) at 1 by (rewrite app_length, repeat_length; lia).
  apply bits_msb_b2d. apply bits_app. split; [apply bits_repeat0|exact Hg].
Qed.

(* the groups of a bit array, the last one completed with zeros on the left *)
Definition padded (b : nat) (bs : list Z) : list Z :=
  let n := (length bs / b)%nat in let r := (length bs mod b)%nat in
  firstn (n * b) bs ++ (if (r =? 0)%nat then [] else repeat 0 (b - r)) ++ skipn (n * b) bs.

Lemma concat_slices : forall (bs : list Z) b n, (n * b <= length bs)%nat -> concat (map (fun k => slice bs (k * b) (k * b + b)) (seq 0 n)) = firstn (n * b) bs.
Proof.
  intros bs b n. induction n as [|n IH]; intros H; [reflexivity|]. rewrite seq_S, map_app, concat_app, IH by lia. cbn [map concat]. rewrite app_nil_r, Nat.add_0_l. unfold slice.
  replace (n * b + b - n * b)%nat with b by lia. replace (S n * b)%nat with (n * b + b)%nat by lia. rewrite <- (firstn_skipn (n * b) bs) at 3. rewrite firstn_app. rewrite firstn_firstn, firstn_length. replace (Nat.min (n * b + b) (n * b)) with (n * b)%nat by lia.
  f_equal. f_equal. lia.
Qed.

Lemma roundtrip : forall md bs v, wf md -> NoDup (points md) -> (1 <= num_bits md)%nat -> bits bs -> bs <> [] ->
  exists s, modulate md bs = Ok s /\ demodulate md s Hard v = Ok (inl (padded (num_bits md) bs)).
Proof.
  intros md bs v HW ND Hn Hb Hne. rewrite modulate_ok by assumption. eexists. split; [reflexivity|]. unfold demodulate.
  rewrite (mapM_Ok _ (fun y => match hard_index md y with Ok l => l | Err _ => 0%nat end)).
  2:{ intros y Hy. apply in_map_iff in Hy as (k & <- & _). rewrite hard_exact; [reflexivity|assumption|assumption|]. apply label_range; assumption. }
  cbn [bind]. match goal with |- context [map Z.of_nat ?l] => replace l with (map (fun k => label md bs k) (seq 0 (count md bs))) end.
  2:{ rewrite map_map. apply map_ext. intros k. rewrite hard_exact; [reflexivity|assumption|assumption|]. apply label_range; assumption. }
  rewrite dec_arr. 2:{ intros l Hl. apply in_map_iff in Hl as (k & <- & _). rewrite <- (proj1 HW). apply label_range; assumption. }
  cbn [bind]. do 2 f_equal. rewrite map_map. rewrite (map_ext_in _ (fun k => repeat 0 (num_bits md - length (group md bs k)) ++ group md bs k)).
  2:{ intros k _. rewrite (proj2 (label_range md bs k HW Hb)). apply bits_msb_short; [apply bits_slice, Hb|apply group_length]. }
  unfold padded, count. set (b := num_bits md) in *. set (L := length bs). set (n := (L / b)%nat). set (r := (L mod b)%nat).
  assert (HL : L = (b * n + r)%nat) by (apply Nat.div_mod; lia). assert (Hr : (r < b)%nat) by (apply Nat.mod_upper_bound; lia).
  assert (Full : concat (map (fun k => repeat 0 (b - length (group md bs k)) ++ group md bs k) (seq 0 n)) = firstn (n * b) bs).
  { rewrite <- concat_slices by (fold L; lia). f_equal. apply map_ext_in. intros k Hk. apply in_seq in Hk. unfold group. fold b. replace (b - length _)%nat with 0%nat; [reflexivity|].
    unfold slice. rewrite firstn_length, skipn_length. fold L. assert (k * b + b <= n * b)%nat by nia. lia. }
  destruct (Nat.eqb_spec r 0) as [Er|Er].
  - replace ((L + b - 1) / b)%nat with n by (apply (Nat.div_unique _ _ n (b - 1)); lia). rewrite Full. rewrite (skipn_all2 bs) by (fold L; lia). rewrite app_nil_r. reflexivity.
  - replace ((L + b - 1) / b)%nat with (n + 1)%nat by (apply (Nat.div_unique _ _ (n + 1) (r - 1)); lia). rewrite seq_app, map_app, concat_app, Full. cbn [map seq concat]. rewrite app_nil_r, Nat.add_0_l.
    assert (G : group md bs n = skipn (n * b) bs) by (unfold group, slice; fold b; apply firstn_all2; rewrite skipn_length; fold L; lia). rewrite G, skipn_length. fold L. replace (L - n * b)%nat with r by lia. reflexivity.
Qed.

Lemma hard_full : forall md ys v, wf md -> exists labels out, demodulate md ys Hard v = Ok (inl out) /\ length labels = length ys /\ out = concat (map (fun l => bits_msb (num_bits md) (Z.of_nat l)) labels) /\
  forall q, (q < length ys)%nat -> let l := nth q labels 0%nat in let y := nth q ys C0 in (l < length (points md))%nat /\
    (forall j, (j < length (points md))%nat -> (Cabs (y - nth l (points md) C0)%C <= Cabs (y - nth j (points md) C0)%C)%R) /\
    (forall j, (j < l)%nat -> (Cabs (y - nth l (points md) C0)%C < Cabs (y - nth j (points md) C0)%C)%R).
Proof.
  intros md ys v HW. set (h := fun y => match hard_index md y with Ok l => l | Err _ => 0%nat end).
  assert (Hh : forall y, hard_index md y = Ok (h y)) by (intros y; unfold h; destruct (hard_ok md y HW) as (l & E & _); rewrite E; reflexivity).
  assert (Hs : forall y, (h y < length (points md))%nat /\ (forall j, (j < length (points md))%nat -> (Cabs (y - nth (h y) (points md) C0)%C <= Cabs (y - nth j (points md) C0)%C)%R) /\
    (forall j, (j < h y)%nat -> (Cabs (y - nth (h y) (points md) C0)%C < Cabs (y - nth j (points md) C0)%C)%R)).
  { intros y. destruct (hard_ok md y HW) as (l & E & K). rewrite Hh in E. injection E as ->. exact K. }
  exists (map h ys). eexists. unfold demodulate. rewrite (mapM_Ok _ h) by (intros; apply Hh). cbn [bind]. rewrite dec_arr. 2:{ intros l Hl. apply in_map_iff in Hl as (y & <- & _). rewrite <- (proj1 HW). apply Hs. }
  cbn [bind]. split; [reflexivity|]. split; [apply map_length|]. split; [reflexivity|]. intros q Hq. cbv zeta. rewrite (nth_indep _ 0%nat (h C0)) by (rewrite map_length; exact Hq). rewrite (map_nth h). apply Hs.
Qed.
