(* Noise margins of the MIMO detectors (C73). *)
From Coq Require Import Permutation Sorted.
From Verif Require Import Base UtilModel UtilProofs Cplx ModemModel ModemProofs MimoModel MimoSpec MimoProofs KbestProofs.
Open Scope Z_scope.

(* ---------------------------------------------------------------- maximum likelihood *)
Lemma Cnorm2_gap : forall a b : C, (Cnorm2 (a - b)%C <= 2 * Cnorm2 a + 2 * Cnorm2 b)%R.
Proof. intros a b. unfold Cnorm2, Csub. cbn [re im]. pose proof (Rle_0_sqr (re a + re b)). pose proof (Rle_0_sqr (im a + im b)). unfold Rsqr in *. lra. Qed.
Lemma Rsum_map_le : forall {A} (f g : A -> R) l, (forall x, In x l -> (f x <= g x)%R) -> (Rsum (map f l) <= Rsum (map g l))%R.
Proof. intros A f g l. induction l as [|a l IH]; intros H; cbn [map Rsum fold_right]; [lra|]. apply Rplus_le_compat; [apply H; left; reflexivity|]. apply IH. intros x Hx. apply H. right. exact Hx. Qed.
Lemma sq_dist_gap : forall y h x x', length y = length h -> (sq_dist (map (fun row => apply_row row x) h) h x' <= 2 * sq_dist y h x + 2 * sq_dist y h x')%R.
Proof.
  intros y h x x' Hy. unfold sq_dist. rewrite <- !Rsum_map_mul, <- Rsum_map_add. apply Rsum_map_le. intros i Hi. apply in_seq in Hi. rewrite (nth_map_lt _ _ _ [] C0) by lia.
  set (a := nth i y C0). set (u := apply_row (nth i h []) x). set (u' := apply_row (nth i h []) x'). replace (u - u')%C with ((a - u') - (a - u))%C by ring. pose proof (Cnorm2_gap (a - u')%C (a - u)%C). lra.
Qed.
Lemma margin_lt : forall y h c n x, length y = length h -> ml_margin y h c n x -> forall x', vector_of c n x' -> x' <> x -> (sq_dist y h x < sq_dist y h x')%R.
Proof. intros y h c n x Hy HM x' Hx' Hne. pose proof (HM x' Hx' Hne). pose proof (sq_dist_gap y h x x' Hy). lra. Qed.
Lemma C_list_eq : forall l l' : list C, {l = l'} + {l <> l'}.
Proof. intros l l'. apply list_eq_dec. intros [a b] [a' b']. destruct (Req_EM_T a a') as [->|N]; [|right; intros E; injection E; auto]. destruct (Req_EM_T b b') as [->|N]; [left; reflexivity|right; intros E; injection E; auto]. Qed.
Lemma margin_ml : forall y h c n x x', length y = length h -> vector_of c n x -> ml_margin y h c n x -> ml_decision y h c n x' -> x' = x.
Proof. intros y h c n x x' Hy Hx HM (Hx' & HL). destruct (C_list_eq x' x) as [E|N]; [exact E|]. pose proof (margin_lt y h c n x Hy HM x' Hx' N). pose proof (HL x Hx). lra. Qed.

(* ---------------------------------------------------------------- successive decisions *)
Lemma Csum_0 : forall {A} (f : A -> C) l, (forall a, In a l -> f a = C0) -> Csum (map f l) = C0.
Proof. intros A f l H. rewrite (Csum_map_ext f (fun _ => C0) l H). apply Csum_map_0. Qed.
Lemma apply_row_0 : forall row n, apply_row row (repeat C0 n) = C0.
Proof. intros row n. unfold apply_row. apply Csum_0. intros j _. rewrite nth_repeat. ring. Qed.
Lemma sq_dist_zero : forall m h x, sq_dist (repeat C0 m) h x = energy_of h x.
Proof.
  intros m h x. unfold sq_dist, energy_of. rewrite <- (map_nth_seq_id h []) at 2. rewrite map_map. apply Rsum_map_ext. intros i Hi. rewrite nth_repeat. unfold Cnorm2, Csub, C0. cbn [re im]. ring.
Qed.
Lemma qr_energy : forall h n q r v, is_qr h n q r -> length v = n -> energy_of h v = energy_of r v.
Proof.
  intros h n q r v HQ Hv. assert (HQ' := HQ). destruct HQ' as (_ & _ & Q3 & R1 & _). set (m := length h). destruct (qr_dist (repeat C0 m) h n q r HQ ltac:(apply repeat_length)) as (c0 & H0).
  assert (YT : q_yt (repeat C0 m) n q = repeat C0 n).
  { apply (nth_ext _ _ C0 C0); [rewrite q_yt_length, repeat_length; reflexivity|]. intros a Ha. rewrite q_yt_length in Ha. rewrite q_yt_nth by (try exact Ha; rewrite repeat_length; symmetry; exact Q3). rewrite nth_repeat. apply Csum_0. intros i _. rewrite nth_repeat. ring. }
  rewrite YT in H0. pose proof (H0 v Hv) as E1. pose proof (H0 (repeat C0 n) ltac:(apply repeat_length)) as E2. rewrite !sq_dist_zero in E1, E2.
  assert (Z : forall g : list (list C), energy_of g (repeat C0 n) = 0%R). { intros g. unfold energy_of. rewrite (Rsum_map_ext _ (fun _ => 0%R)); [rewrite Rsum_const; ring|]. intros row _. rewrite apply_row_0. apply Cnorm2_C0. }
  rewrite !Z in E2. lra.
Qed.
(* a vector that ends in e at position j and that r maps to r_jj e in row j and to 0 elsewhere *)
Lemma one_row : forall r n j e, length r = n -> (forall i l, (l < i < n)%nat -> rx r i l = C0) -> (forall a, (a < j)%nat -> rx r a a <> C0) -> (j < n)%nat ->
  exists v, length v = n /\ nth j v C0 = e /\ (forall l, (j < l < n)%nat -> nth l v C0 = C0) /\ energy_of r v = Cnorm2 (rx r j j * e)%C.
Proof.
  intros r n j e Hr HT HD Hj. destruct (back_subst (rx r) j (fun l => - (rx r l j * e))%C HD) as (f & Hf).
  set (v := map (fun k => if (k <? j)%nat then f k else if (k =? j)%nat then e else C0) (seq 0 n)). assert (Lv : length v = n) by (unfold v; rewrite map_length; apply seq_length).
  assert (W : forall k, (k < n)%nat -> nth k v C0 = if (k <? j)%nat then f k else if (k =? j)%nat then e else C0) by (intros k Hk; unfold v; rewrite nth_map_seq by exact Hk; reflexivity).
  exists v. split; [exact Lv|]. split; [rewrite W by exact Hj; rewrite Nat.ltb_irrefl, Nat.eqb_refl; reflexivity|]. split.
  { intros l Hl. rewrite W by lia. destruct (Nat.ltb_spec l j); [lia|]. destruct (Nat.eqb_spec l j); [lia|reflexivity]. }
  assert (A : forall k, (k < n)%nat -> apply_row (nth k r []) v = if (k =? j)%nat then (rx r j j * e)%C else C0).
  { intros k Hk. unfold apply_row. rewrite Lv. replace n with (j + (1 + (n - j - 1)))%nat by lia. rewrite !seq_app, !map_app, !Csum_app. cbn [Nat.add seq map Csum fold_right]. fold (rx r k j). rewrite (W j Hj), Nat.ltb_irrefl, Nat.eqb_refl.
    rewrite (Csum_0 _ (seq (j + 1) _)).
    2:{ intros l Hl. apply in_seq in Hl. rewrite W by lia. destruct (Nat.ltb_spec l j); [lia|]. destruct (Nat.eqb_spec l j); [lia|]. ring. }
    destruct (Nat.eqb_spec k j) as [->|Hkj].
    - rewrite (Csum_0 _ (seq 0 j)); [ring|]. intros l Hl. apply in_seq in Hl. fold (rx r j l). rewrite HT by lia. ring.
    - destruct (Nat.lt_ge_cases k j) as [Hl|Hl].
      + replace j with (k + (j - k))%nat at 1 by lia. rewrite seq_app, map_app, Csum_app. rewrite (Csum_0 _ (seq 0 k)); [|intros l Hl'; apply in_seq in Hl'; fold (rx r k l); rewrite HT by lia; ring]. cbn [Nat.add].
        rewrite (Csum_map_ext _ (fun l => (rx r k l * f l)%C) (seq k (j - k))); [rewrite Hf by exact Hl; ring|]. intros l Hl'. apply in_seq in Hl'. rewrite W by lia. destruct (Nat.ltb_spec l j); [reflexivity|lia].
      + rewrite (Csum_0 _ (seq 0 j)); [|intros l Hl'; apply in_seq in Hl'; fold (rx r k l); rewrite HT by lia; ring]. rewrite HT by lia. ring. }
  unfold energy_of. rewrite <- (map_nth_seq_id r []) at 1. rewrite map_map, Hr. rewrite (Rsum_map_ext _ (fun k => if (k =? j)%nat then Cnorm2 (rx r j j * e)%C else 0%R)).
  - replace n with (j + (1 + (n - j - 1)))%nat by lia. rewrite !seq_app, !map_app, !Rsum_app. cbn [Nat.add seq map Rsum fold_right]. rewrite Nat.eqb_refl.
    rewrite (Rsum_map_ext _ (fun _ => 0%R) (seq 0 j)), (Rsum_map_ext _ (fun _ => 0%R) (seq (j + 1) _)); [rewrite !Rsum_const; ring| |]; intros l Hl; apply in_seq in Hl; (destruct (Nat.eqb_spec l j); [lia|reflexivity]).
  - intros k Hk. apply in_seq in Hk. rewrite A by lia. destruct (k =? j)%nat; [reflexivity|apply Cnorm2_C0].
Qed.

Section RUN.
  Variables (argsort : list R -> list nat) (garbage y : list C) (n : nat) (q r : list (list C)) (c : list C) (K : nat) (h : list (list C)) (x : list C).
  Hypothesis (HS : sorting argsort) (Hc : c <> []) (HK : (1 <= K)%nat) (Hg : length garbage = n) (HQ : is_qr h n q r) (Hy : length y = length h).
  Hypothesis (Hx : vector_of c n x) (HM : successive_margin y h c n x).
  Notation yt := (q_yt y n q).
  (* two different points: r has no zero on its diagonal *)
  Lemma margin_diag : forall a b, In a c -> In b c -> a <> b -> forall k, (k < n)%nat -> rx r k k <> C0.
  Proof.
    intros a b Ha Hb Hab. assert (HQ' := HQ). destruct HQ' as (_ & _ & _ & R1 & _ & _ & _ & HT).
    intros k. induction k as [k IH] using lt_wf_ind. intros Hk Ez. destruct (one_row r n k (a - b)%C R1 HT ltac:(intros l Hl; apply IH; lia) Hk) as (v & Lv & Vk & Vl & En).
    pose proof (HM v k a b Lv Hk Ha Hb Hab Vk Vl) as B. rewrite (qr_energy h n q r v HQ Lv), En, Ez in B. replace (C0 * (a - b))%C with C0 in B by ring. rewrite Cnorm2_C0 in B. pose proof (sq_dist_nonneg y h x). lra.
  Qed.
  Lemma margin_row : forall a b, In a c -> In b c -> a <> b -> forall k, (k < n)%nat -> (4 * sq_dist y h x < Cnorm2 (rx r k k * (a - b))%C)%R.
  Proof.
    intros a b Ha Hb Hab k Hk. assert (HQ' := HQ). destruct HQ' as (_ & _ & _ & R1 & _ & _ & _ & HT). destruct (one_row r n k (a - b)%C R1 HT ltac:(intros l Hl; apply (margin_diag a b Ha Hb Hab); lia) Hk) as (v & Lv & Vk & Vl & <-).
    rewrite <- (qr_energy h n q r v HQ Lv). exact (HM v k a b Lv Hk Ha Hb Hab Vk Vl).
  Qed.
  (* the triangular system keeps at most the energy of the noise *)
  Lemma margin_bessel : forall a b, In a c -> In b c -> a <> b -> (pmetric yt r x 0 <= sq_dist y h x)%R.
  Proof.
    intros a b Ha Hb Hab. assert (HQ' := HQ). destruct HQ' as (_ & _ & _ & R1 & _ & _ & _ & HT). destruct (qr_dist y h n q r HQ Hy) as (c0 & H0). destruct Hx as (Lx & _). rewrite (pmetric_0 yt r x n Lx R1 HT), (H0 x Lx).
    destruct (back_subst (rx r) n (fun l => nth l yt C0) ltac:(intros l Hl; apply (margin_diag a b Ha Hb Hab); exact Hl)) as (f & Hf). set (z := map f (seq 0 n)). assert (Lz : length z = n) by (unfold z; rewrite map_length; apply seq_length).
    assert (Z : sq_dist yt r z = 0%R).
    { rewrite <- (pmetric_0 yt r z n Lz R1 HT). unfold pmetric. rewrite (Rsum_map_ext _ (fun _ => 0%R)); [rewrite Rsum_const; ring|]. intros k Hk. apply in_seq in Hk. rewrite Lz in Hk. replace (nth k yt C0 - tailsum r z k k)%C with C0; [apply Cnorm2_C0|].
      rewrite <- (Hf k) by lia. unfold tailsum. rewrite Lz. rewrite (Csum_map_ext (fun l => (rx r k l * nth l z C0)%C) (fun l => (rx r k l * f l)%C)); [ring|]. intros l Hl. apply in_seq in Hl. unfold z. rewrite nth_map_seq by lia. reflexivity. }
    pose proof (H0 z Lz) as E. pose proof (sq_dist_nonneg y h z). lra.
  Qed.
  Lemma pmetric_mono : forall yt' x' i, (pmetric yt' r x' (S i) <= pmetric yt' r x' i)%R.
  Proof.
    intros yt' x' i. destruct (Nat.lt_ge_cases i (length x')) as [Hi|Hi]; [rewrite (pmetric_S yt' r x' i Hi); pose proof (Cnorm2_nonneg (nth i yt' C0 - tailsum r x' i i)%C); lra|].
    unfold pmetric. replace (length x' - S i)%nat with 0%nat by lia. replace (length x' - i)%nat with 0%nat by lia. cbn [seq map Rsum fold_right]. lra.
  Qed.
  Lemma pmetric_anti : forall yt' x' d i, (pmetric yt' r x' (i + d) <= pmetric yt' r x' i)%R.
  Proof. intros yt' x' d. induction d as [|d IH]; intros i; [rewrite Nat.add_0_r; lra|]. replace (i + S d)%nat with (S (i + d)) by lia. pose proof (pmetric_mono yt' x' (i + d)). pose proof (IH i). lra. Qed.
  (* a candidate with another suffix is worse than the sent one *)
  Lemma margin_metric : forall x' i, length x' = n -> (forall j, (i <= j < n)%nat -> In (nth j x' C0) c) -> (i <= n)%nat -> (pmetric yt r x' i <= pmetric yt r x i)%R -> forall j, (i <= j < n)%nat -> nth j x' C0 = nth j x C0.
  Proof.
    intros x' i Lx' Hin Hi Hle. destruct Hx as (Lx & Fx). rewrite Forall_forall in Fx. assert (Ceq : forall z z' : C, {z = z'} + {z <> z'}). { intros [u1 u2] [w1 w2]. destruct (Req_EM_T u1 w1) as [->|N]; [|right; intros E; injection E; auto]. destruct (Req_EM_T u2 w2) as [->|N]; [left; reflexivity|right; intros E; injection E; auto]. }
    assert (G : forall d, (d <= n - i)%nat -> forall j, (n - d <= j < n)%nat -> nth j x' C0 = nth j x C0); [|intros j Hj; apply (G (n - i)%nat); lia].
    induction d as [|d IH]; intros Hd j Hj; [lia|]. destruct (Nat.eq_dec j (n - S d)) as [->|Hne]; [|apply IH; lia]. set (k := (n - S d)%nat) in *. destruct (Ceq (nth k x' C0) (nth k x C0)) as [E|N]; [exact E|exfalso].
    assert (Ia : In (nth k x C0) c) by (apply Fx, nth_In; unfold k; lia). assert (Ib : In (nth k x' C0) c) by (apply Hin; unfold k; lia).
    pose proof (margin_row (nth k x' C0) (nth k x C0) Ib Ia N k ltac:(unfold k; lia)) as B. pose proof (margin_bessel (nth k x' C0) (nth k x C0) Ib Ia N) as Bs.
    assert (T : tailsum r x' k (S k) = tailsum r x k (S k)). { unfold tailsum. rewrite Lx', Lx. apply Csum_map_ext. intros l Hl. apply in_seq in Hl. rewrite IH by (unfold k in *; lia). reflexivity. }
    assert (P : pmetric yt r x' (S k) = pmetric yt r x (S k)).
    { unfold pmetric. rewrite Lx', Lx. apply Rsum_map_ext. intros a Ha. apply in_seq in Ha. do 2 f_equal. unfold tailsum. rewrite Lx', Lx. apply Csum_map_ext. intros l Hl. apply in_seq in Hl. rewrite IH by (unfold k in *; lia). reflexivity. }
    pose proof (pmetric_anti yt x' (k - i) i) as A'. replace (i + (k - i))%nat with k in A' by (unfold k; lia). rewrite (pmetric_S yt r x' k) in A' by (unfold k; lia). rewrite P in A'.
    pose proof (pmetric_anti yt x i 0) as A0. cbn [Nat.add] in A0. pose proof (pmetric_anti yt x k 0) as A1. cbn [Nat.add] in A1. rewrite (pmetric_S yt r x k) in A1 by (unfold k; lia).
    rewrite (tailsum_S r x' k k) in A' by (unfold k; lia). rewrite (tailsum_S r x k k) in A1 by (unfold k; lia). rewrite T in A'. set (t := tailsum r x k (S k)) in *. set (u := nth k yt C0) in *.
    pose proof (Cnorm2_gap (u - (rx r k k * nth k x C0 + t))%C (u - (rx r k k * nth k x' C0 + t))%C) as Gp. replace (u - (rx r k k * nth k x C0 + t) - (u - (rx r k k * nth k x' C0 + t)))%C with (rx r k k * (nth k x' C0 - nth k x C0))%C in Gp by ring.
    assert (N0 : (0 <= pmetric yt r x (S k))%R). { unfold pmetric. apply Rsum_nonneg. intros v Hv. apply in_map_iff in Hv as (b & <- & _). apply Cnorm2_nonneg. }
    lra.
  Qed.
  Lemma kb_margin : exists k0 rest, kb_run argsort garbage y n q r c K 0 = k0 :: rest /\ cx k0 = x.
  Proof.
    destruct Hx as (Lx & Fx). rewrite Forall_forall in Fx.
    assert (G : forall d, (d <= n)%nat -> let i := (n - d)%nat in exists k0 rest, kb_run argsort garbage y n q r c K i = k0 :: rest /\ forall j, (i <= j < n)%nat -> nth j (cx k0) C0 = nth j x C0).
    { induction d as [|d IH]; intros Hd i.
      - unfold i. rewrite Nat.sub_0_r, kb_run_n. eexists _, []. split; [reflexivity|]. intros; lia.
      - assert (Hi : (i < n)%nat) by (unfold i; lia). specialize (IH ltac:(lia)). cbv zeta in IH. replace (n - d)%nat with (S i) in IH by (unfold i; lia). destruct IH as (k1 & rest1 & E1 & HA1).
        destruct (step_head argsort garbage y n q r c K HS Hc HK Hg i Hi) as (k0 & rest & E0 & HB). exists k0, rest. split; [exact E0|].
        destruct (good_run argsort garbage y n q r c K HS Hc HK Hg (S i) ltac:(lia)) as (_ & F1 & _). destruct (good_run argsort garbage y n q r c K HS Hc HK Hg i ltac:(lia)) as (_ & F0 & _). rewrite E0 in F0. rewrite E1 in F1. pose proof (Forall_inv F0) as G0. pose proof (Forall_inv F1) as G1.
        assert (XI : In (nth i x C0) c) by (apply Fx, nth_In; lia). specialize (HB k1 (nth i x C0)). rewrite E1 in HB. specialize (HB (or_introl eq_refl) XI).
        destruct (good_new yt r c n i k1 (nth i x C0) Hi G1 XI) as (L1 & _ & _ & _ & M1). destruct G0 as (L0 & _ & In0 & _ & M0). destruct G1 as (L2 & _). apply margin_metric; [exact L0|exact In0|lia|]. rewrite <- M0. rewrite M1 in HB.
        assert (P : pmetric yt r (cx (kb_new r i (k1, nth i x C0))) i = pmetric yt r x i).
        { assert (AG : forall j, (i <= j < n)%nat -> nth j (cx (kb_new r i (k1, nth i x C0))) C0 = nth j x C0). { intros j Hj. cbn [kb_new cx fst snd]. destruct (Nat.eq_dec j i) as [->|Hji]; [apply nth_upd_eq; lia|]. rewrite nth_upd_neq by exact Hji. apply HA1. lia. }
          unfold pmetric. rewrite L1, Lx. apply Rsum_map_ext. intros a Ha. apply in_seq in Ha. do 2 f_equal. unfold tailsum. rewrite L1, Lx. apply Csum_map_ext. intros l Hl. apply in_seq in Hl. rewrite AG by lia. reflexivity. }
        rewrite P in HB. exact HB. }
    destruct (G n ltac:(lia)) as (k0 & rest & E & HA). rewrite Nat.sub_diag in E. exists k0, rest. split; [exact E|]. destruct (good_run argsort garbage y n q r c K HS Hc HK Hg 0 ltac:(lia)) as (_ & F0 & _). rewrite E in F0. pose proof (Forall_inv F0) as G0. destruct G0 as (L0 & _). apply (nth_ext _ _ C0 C0); [lia|]. intros j Hj. apply HA. lia.
  Qed.
End RUN.
(* the successive margin implies the maximum-likelihood margin *)
Lemma successive_ml : forall y h c n x, columns n h -> vector_of c n x -> successive_margin y h c n x -> ml_margin y h c n x.
Proof.
  intros y h c n x Hh (Lx & Fx) HM x' (Lx' & Fx') Hne. rewrite Forall_forall in Fx, Fx'. assert (Ceq : forall z z' : C, {z = z'} + {z <> z'}). { intros [u1 u2] [w1 w2]. destruct (Req_EM_T u1 w1) as [->|N]; [|right; intros E; injection E; auto]. destruct (Req_EM_T u2 w2) as [->|N]; [left; reflexivity|right; intros E; injection E; auto]. }
  assert (J : exists j, (j < n)%nat /\ nth j x C0 <> nth j x' C0 /\ forall l, (j < l < n)%nat -> nth l x C0 = nth l x' C0).
  { assert (G : forall d, (d <= n)%nat -> (forall l, (n - d <= l < n)%nat -> nth l x C0 = nth l x' C0) \/ exists j, (j < n)%nat /\ nth j x C0 <> nth j x' C0 /\ forall l, (j < l < n)%nat -> nth l x C0 = nth l x' C0).
    { induction d as [|d IH]; intros Hd; [left; intros; lia|]. destruct (IH ltac:(lia)) as [A|A]; [|right; exact A]. destruct (Ceq (nth (n - S d) x C0) (nth (n - S d) x' C0)) as [E|N].
      - left. intros l Hl. destruct (Nat.eq_dec l (n - S d)) as [->|]; [exact E|apply A; lia].
      - right. exists (n - S d)%nat. split; [lia|]. split; [exact N|]. intros l Hl. apply A. lia. }
    destruct (G n ltac:(lia)) as [A|A]; [|exact A]. exfalso. apply Hne. apply (nth_ext _ _ C0 C0); [lia|]. intros l Hl. symmetry. apply A. lia. }
  destruct J as (j & Hj & Nj & Hl). set (v := map (fun l => (nth l x C0 - nth l x' C0)%C) (seq 0 n)). assert (Lv : length v = n) by (unfold v; rewrite map_length; apply seq_length). assert (W : forall l, (l < n)%nat -> nth l v C0 = (nth l x C0 - nth l x' C0)%C) by (intros l Hl'; unfold v; rewrite nth_map_seq by exact Hl'; reflexivity).
  pose proof (HM v j (nth j x C0) (nth j x' C0) Lv Hj ltac:(apply Fx, nth_In; lia) ltac:(apply Fx', nth_In; lia) Nj ltac:(apply W, Hj)) as B. assert (Bz : forall l, (j < l < n)%nat -> nth l v C0 = C0) by (intros l Hl'; rewrite W by lia; rewrite Hl by exact Hl'; ring). specialize (B Bz). replace (sq_dist (map (fun row => apply_row row x) h) h x') with (energy_of h v); [exact B|].
  unfold energy_of, sq_dist. rewrite <- (map_nth_seq_id h []) at 1. rewrite map_map. apply Rsum_map_ext. intros i Hi. apply in_seq in Hi. rewrite (nth_map_lt _ _ _ [] C0) by lia. f_equal. unfold apply_row. rewrite Lv, Lx, Lx', <- Csum_map_sub. apply Csum_map_ext. intros l Hl'. apply in_seq in Hl'. rewrite W by lia. ring.
Qed.
(* max-log values: the signs are the bits of a strictly closest listed vector *)
Lemma max_log_sign : forall y h v pts (lab : C -> list Z) x k d0 d1, (0 < v)%R -> In x pts -> (forall x', In x' pts -> x' <> x -> (sq_dist y h x < sq_dist y h x')%R) ->
  smallest y h pts (fun x => nth k (flat_map lab x) 2 = 0) d0 -> smallest y h pts (fun x => nth k (flat_map lab x) 2 = 1) d1 ->
  (nth k (flat_map lab x) 2 = 0 -> positive (max_log_value v d0 d1)) /\ (nth k (flat_map lab x) 2 = 1 -> negative (max_log_value v d0 d1)).
Proof.
  intros y h v pts lab x k d0 d1 Hv Hx Hs S0 S1.
  assert (H2 : forall u, (0 < u)%R -> (0 < u / (2 * v))%R) by (intros u Hu; apply Rdiv_lt_0_compat; lra).
  split; intros Hb.
  - destruct d0 as [a|]; cbn [smallest] in S0; [|exfalso; exact (S0 x Hx Hb)]. destruct d1 as [e|]; cbn [max_log_value positive smallest] in *; [|exact I]. destruct S0 as (_ & S0). specialize (S0 x Hx Hb). destruct S1 as ((x' & X1 & X2 & <-) & _). assert (x' <> x) by (intros ->; rewrite Hb in X2; discriminate). specialize (Hs x' X1 H). apply H2. lra.
  - destruct d1 as [a|]; cbn [smallest] in S1; [|exfalso; exact (S1 x Hx Hb)]. destruct d0 as [e|]; cbn [max_log_value negative smallest] in *; [|exact I]. destruct S1 as (_ & S1). specialize (S1 x Hx Hb). destruct S0 as ((x' & X1 & X2 & <-) & _). assert (x' <> x) by (intros ->; rewrite Hb in X2; discriminate). specialize (Hs x' X1 H).
    pose proof (H2 (sq_dist y h x' - a)%R ltac:(lra)) as P. replace ((a - sq_dist y h x') / (2 * v))%R with (- ((sq_dist y h x' - a) / (2 * v)))%R by (field; lra). lra.
Qed.
