(* Proofs about kbest. *)
From Coq Require Import Permutation Sorted.
From Verif Require Import Base UtilModel UtilProofs Cplx ModemModel ModemProofs MimoModel MimoSpec MimoProofs.
Open Scope Z_scope.

(* ---------------------------------------------------------------- QR: |y - h x|^2 = |q^H y - r x|^2 + constant *)
Definition ip (n : nat) (f g : nat -> C) : C := Csum (map (fun i => (Cconj (f i) * g i)%C) (seq 0 n)).
Lemma Cconj_add : forall a b, Cconj (a + b)%C = (Cconj a + Cconj b)%C.
Proof. intros. creal. Qed.
Lemma Cconj_sub : forall a b, Cconj (a - b)%C = (Cconj a - Cconj b)%C.
Proof. intros. creal. Qed.
Lemma Cconj_mul : forall a b, Cconj (a * b)%C = (Cconj a * Cconj b)%C.
Proof. intros. creal. Qed.
Lemma Cconj_conj : forall a, Cconj (Cconj a) = a.
Proof. intros. creal. Qed.
Lemma Cconj_0 : Cconj C0 = C0. Proof. creal. Qed.
Lemma ip_norm : forall n f, Rsum (map (fun i => Cnorm2 (f i)) (seq 0 n)) = re (ip n f f).
Proof. intros n f. unfold ip. rewrite Csum_re, map_map. apply Rsum_map_ext. intros i _. unfold Cnorm2, Cmul, Cconj. cbn [re im]. ring. Qed.
Lemma ip_sub : forall n f g, ip n (fun i => f i - g i)%C (fun i => f i - g i)%C = (ip n f f - ip n f g - ip n g f + ip n g g)%C.
Proof. intros n f g. unfold ip. rewrite <- !Csum_map_sub, <- Csum_map_add. apply Csum_map_ext. intros i _. rewrite Cconj_sub. ring. Qed.
Lemma ip_conj : forall n f g, ip n f g = Cconj (ip n g f).
Proof. intros n f g. unfold ip. rewrite Csum_conj, map_map. apply Csum_map_ext. intros i _. rewrite Cconj_mul, Cconj_conj. ring. Qed.

Definition q_yt (y : list C) (n : nat) (q : list (list C)) : list C := matvec (conj_transpose n q) y.
Lemma q_yt_length : forall y n q, length (q_yt y n q) = n.
Proof. intros. unfold q_yt, matvec, conj_transpose. rewrite !map_length. apply seq_length. Qed.
Lemma q_yt_nth : forall y n q a, (a < n)%nat -> length y = length q -> nth a (q_yt y n q) C0 = Csum (map (fun i => (Cconj (nth a (nth i q []) C0) * nth i y C0)%C) (seq 0 (length q))).
Proof.
  intros y n q a Ha Hy. unfold q_yt, matvec, conj_transpose. rewrite map_map, nth_map_seq by exact Ha. rewrite dotC_apply by (unfold column; rewrite !map_length; symmetry; exact Hy). unfold apply_row. rewrite Hy. apply Csum_map_ext. intros i Hi. apply in_seq in Hi. f_equal.
  rewrite (nth_map_lt _ _ _ C0 C0) by (unfold column; rewrite map_length; lia). unfold column. rewrite (nth_map_lt _ _ _ [] C0) by lia. reflexivity.
Qed.
Lemma qr_apply : forall h n q r x i, is_qr h n q r -> length x = n -> (i < length h)%nat -> apply_row (nth i h []) x = Csum (map (fun k => (nth k (nth i q []) C0 * apply_row (nth k r []) x)%C) (seq 0 n)).
Proof.
  intros h n q r x i (H1 & H2 & H3 & H4 & H5 & HP & HO & HT) Hx Hi. unfold apply_row. rewrite Hx. transitivity (Csum (map (fun j => Csum (map (fun k => (nth k (nth i q []) C0 * (nth j (nth k r []) C0 * nth j x C0))%C) (seq 0 n))) (seq 0 n))).
  - apply Csum_map_ext. intros j Hj. apply in_seq in Hj. rewrite HP by lia. transitivity (nth j x C0 * Csum (map (fun k => (nth k (nth i q []) C0 * nth j (nth k r []) C0)%C) (seq 0 n)))%C; [ring|]. rewrite <- Csum_map_mul. apply Csum_map_ext. intros k _. ring.
  - rewrite Csum_swap. apply Csum_map_ext. intros k _. rewrite Csum_map_mul. reflexivity.
Qed.
Lemma qr_dist : forall y h n q r, is_qr h n q r -> length y = length h -> exists c0, forall x, length x = n -> sq_dist y h x = (sq_dist (q_yt y n q) r x + c0)%R.
Proof.
  intros y h n q r HQ Hy. assert (HQ' := HQ). destruct HQ' as (H1 & H2 & H3 & H4 & H5 & HP & HO & HT). set (M := length h). set (fy := fun i => nth i y C0). set (ft := fun a => nth a (q_yt y n q) C0).
  exists (re (ip M fy fy) - re (ip n ft ft))%R. intros x Hx. set (z := fun k => apply_row (nth k r []) x). set (w := fun i => apply_row (nth i h []) x).
  assert (W : forall i, (i < M)%nat -> w i = Csum (map (fun k => (nth k (nth i q []) C0 * z k)%C) (seq 0 n))) by (intros i Hi; apply (qr_apply h n q r x i HQ Hx Hi)).
  assert (E1 : ip M w fy = ip n z ft).
  { unfold ip. transitivity (Csum (map (fun i => Csum (map (fun k => (Cconj (z k) * (Cconj (nth k (nth i q []) C0) * fy i))%C) (seq 0 n))) (seq 0 M))).
    - apply Csum_map_ext. intros i Hi. apply in_seq in Hi. rewrite W by lia. rewrite Csum_conj, map_map. transitivity (fy i * Csum (map (fun k => Cconj (nth k (nth i q []) C0 * z k)%C) (seq 0 n)))%C; [ring|]. rewrite <- Csum_map_mul. apply Csum_map_ext. intros k _. rewrite Cconj_mul. ring.
    - rewrite Csum_swap. apply Csum_map_ext. intros k Hk. apply in_seq in Hk. rewrite Csum_map_mul. f_equal. unfold ft. rewrite q_yt_nth by (try lia; rewrite H3; exact Hy). rewrite H3. reflexivity. }
  assert (E2 : ip M w w = ip n z z).
  { unfold ip. transitivity (Csum (map (fun i => Csum (map (fun k => (Cconj (z k) * Csum (map (fun l => (Cconj (nth k (nth i q []) C0) * nth l (nth i q []) C0 * z l)%C) (seq 0 n)))%C) (seq 0 n))) (seq 0 M))).
    - apply Csum_map_ext. intros i Hi. apply in_seq in Hi. rewrite W at 1 by lia. rewrite Csum_conj, map_map. transitivity (w i * Csum (map (fun k => Cconj (nth k (nth i q []) C0 * z k)%C) (seq 0 n)))%C; [ring|]. rewrite <- Csum_map_mul. apply Csum_map_ext. intros k _. rewrite Cconj_mul, W by lia.
      transitivity (Cconj (z k) * (Cconj (nth k (nth i q []) C0) * Csum (map (fun k => (nth k (nth i q []) C0 * z k)%C) (seq 0 n))))%C; [ring|]. f_equal. rewrite <- Csum_map_mul. apply Csum_map_ext. intros l _. ring.
    - rewrite Csum_swap. apply Csum_map_ext. intros k Hk. apply in_seq in Hk. rewrite Csum_map_mul. f_equal. rewrite Csum_swap. rewrite (Csum_map_ext _ (fun l => (if (k =? l)%nat then C1 else C0) * z l)%C).
      + rewrite (Csum_single _ n k); [rewrite Nat.eqb_refl; ring|lia|]. intros j _ Hj. destruct (Nat.eqb_spec k j); [lia|ring].
      + intros l Hl. apply in_seq in Hl. rewrite <- (HO k l) by lia. rewrite <- (map_map (fun i => (Cconj (nth k (nth i q []) C0) * nth l (nth i q []) C0)%C) (fun u => (u * z l)%C)). fold M. induction (map _ (seq 0 M)) as [|u us IH]; cbn [map Csum fold_right]; [ring|]. unfold Csum in IH. rewrite IH. ring. }
  unfold sq_dist. rewrite H4. fold M. rewrite (ip_norm M (fun i => nth i y C0 - apply_row (nth i h []) x)%C), (ip_norm n (fun i => nth i (q_yt y n q) C0 - apply_row (nth i r []) x)%C).
  change (fun i => (nth i y C0 - apply_row (nth i h []) x)%C) with (fun i => (fy i - w i)%C). change (fun i => (nth i (q_yt y n q) C0 - apply_row (nth i r []) x)%C) with (fun i => (ft i - z i)%C).
  rewrite !ip_sub. rewrite (ip_conj M fy w), (ip_conj n ft z), E1, E2. unfold Csub, Cadd, Cconj. cbn [re im]. ring.
Qed.

(* ---------------------------------------------------------------- one step *)
Definition rx (r : list (list C)) (a l : nat) : C := nth l (nth a r []) C0.
Definition kb_new (r : list (list C)) (coor : nat) (p : cand * C) : cand :=
  let d := (nth coor (cd (fst p)) C0 - rx r coor coor * snd p)%C in
  {| cx := upd (cx (fst p)) coor (snd p); ct := (ct (fst p) + Cabs d * Cabs d)%R;
     cd := map (fun jd => if (fst jd <? coor)%nat then (snd jd - rx r (fst jd) coor * snd p)%C else snd jd) (combine (seq 0 (length (cd (fst p)))) (upd (cd (fst p)) coor d)) |}.
Definition pairs (c : list C) (cands : list cand) : list (cand * C) := flat_map (fun s => map (fun k => (k, s)) cands) c.
Lemma combine_app2 : forall {A B} (a1 a2 : list A) (b1 b2 : list B), length a1 = length b1 -> combine (a1 ++ a2) (b1 ++ b2) = combine a1 b1 ++ combine a2 b2.
Proof. intros A B a1. induction a1 as [|x a1 IH]; intros a2 [|y b1] b2 H; try discriminate; [reflexivity|]. cbn [app combine]. rewrite IH by (cbn in H; lia). reflexivity. Qed.
Lemma combine_const : forall {A B} (l : list A) (s : B), combine l (repeat s (length l)) = map (fun k => (k, s)) l.
Proof. intros A B l s. induction l as [|x l IH]; [reflexivity|]. cbn [length repeat combine map]. rewrite IH. reflexivity. Qed.
Lemma pairs_combine : forall c cands, combine (concat (repeat cands (length c))) (flat_map (fun s => repeat s (length cands)) c) = pairs c cands.
Proof.
  intros c cands. unfold pairs. induction c as [|s c IH]; [reflexivity|]. cbn [length repeat concat flat_map]. rewrite combine_app2 by (rewrite repeat_length; reflexivity). rewrite IH, combine_const. reflexivity.
Qed.
Lemma pairs_hyp : forall c cands, map snd (pairs c cands) = flat_map (fun s => repeat s (length cands)) c.
Proof.
  intros c cands. unfold pairs. induction c as [|s c IH]; [reflexivity|]. cbn [flat_map]. rewrite map_app, IH. f_equal. rewrite map_map. cbn [snd]. clear. induction cands as [|k l IH]; [reflexivity|]. cbn [map length repeat]. rewrite IH. reflexivity.
Qed.
Lemma pairs_length : forall c cands, length (pairs c cands) = (length cands * length c)%nat.
Proof. intros c cands. unfold pairs. induction c as [|s c IH]; [cbn; lia|]. cbn [flat_map length]. rewrite app_length, map_length, IH. lia. Qed.
Lemma pairs_in : forall c cands k s, In (k, s) (pairs c cands) <-> In k cands /\ In s c.
Proof.
  intros c cands k s. unfold pairs. rewrite in_flat_map. split.
  - intros (s' & Hs & H). apply in_map_iff in H as (k' & E & Hk). injection E as -> ->. auto.
  - intros (Hk & Hs). exists s. split; [exact Hs|]. apply in_map_iff. exists k. auto.
Qed.
Lemma sorted_map : forall {A B} (f : A -> B) (P : B -> B -> Prop) l, StronglySorted P (map f l) -> StronglySorted (fun a b => P (f a) (f b)) l.
Proof. intros A B f P l. induction l as [|x l IH]; intros H; [constructor|]. cbn [map] in H. inversion H as [|? ? HS HF]. subst. constructor; [apply IH, HS|]. rewrite Forall_map in HF. exact HF. Qed.
Lemma kb_step_spec : forall argsort r c K coor cands, sorting argsort ->
  exists L, Permutation L (map (kb_new r coor) (pairs c cands)) /\ StronglySorted (fun a b => (ct a <= ct b)%R) L /\ length L = (length cands * length c)%nat /\ kb_step argsort r c K coor cands = firstn (Nat.min (length L) K) L.
Proof.
  intros argsort r c K coor cands HS. unfold kb_step. cbv zeta. rewrite pairs_combine. rewrite <- (pairs_hyp c cands). set (ps := pairs c cands).
  set (mk := fun p : cand * C => _). set (made := map mk ps). destruct (HS (map ct made)) as (HP & HSo). set (order := argsort (map ct made)) in *. assert (LM : length (map ct made) = length ps) by (unfold made; rewrite !map_length; reflexivity). rewrite LM in HP.
  set (L := map (fun i => kb_new r coor (nth i ps (cand0, C0))) order).
  assert (HPn : forall i, In i order -> (i < length ps)%nat). { intros i Hi. apply (Permutation_in _ HP) in Hi. apply in_seq in Hi. lia. }
  assert (LL : length L = (length cands * length c)%nat). { unfold L. rewrite map_length, (Permutation_length HP), seq_length. apply pairs_length. }
  exists L. split; [|split; [|split; [exact LL|]]].
  - unfold L. rewrite <- (map_map (fun i => nth i ps (cand0, C0)) (kb_new r coor)). apply Permutation_map. etransitivity; [apply Permutation_map, HP|]. rewrite map_nth_seq_id. reflexivity.
  - unfold L. assert (SG : forall o, (forall i, In i o -> (i < length ps)%nat) -> StronglySorted Rle (map (fun i => nth i (map ct made) 0%R) o) -> StronglySorted (fun a b => (ct a <= ct b)%R) (map (fun i => kb_new r coor (nth i ps (cand0, C0))) o)).
    { clear - made. intros o. assert (V : forall i, (i < length ps)%nat -> nth i (map ct made) 0%R = ct (kb_new r coor (nth i ps (cand0, C0)))).
      { intros i Hi. unfold made. rewrite map_map. rewrite (nth_map_lt _ _ _ (cand0, C0) 0%R) by exact Hi. reflexivity. }
      induction o as [|i o IH]; intros HB H; [constructor|]. cbn [map] in *. inversion H as [|? ? H1 H2]. subst. constructor; [apply IH; [intros j Hj; apply HB; right; exact Hj|exact H1]|].
      rewrite Forall_map in *. rewrite Forall_forall in *. intros j Hj. rewrite <- !V by (apply HB; (left; reflexivity) || (right; exact Hj)). apply H2, Hj. }
    apply SG; assumption.
  - rewrite LL. unfold L. rewrite firstn_map. apply map_ext_in. intros i Hi. assert (Hi' : (i < length ps)%nat). { apply HPn. rewrite <- (firstn_skipn (Nat.min (length cands * length c) K) order). apply in_or_app. left. exact Hi. }
    unfold made. rewrite (nth_map_lt mk ps i (cand0, C0) cand0) by exact Hi'. rewrite (nth_map_lt snd ps i (cand0, C0) C0) by exact Hi'. unfold mk, kb_new. cbn [cx cd ct]. rewrite upd_length. reflexivity.
Qed.

(* ---------------------------------------------------------------- candidates: suffixes *)
(* sum over l >= i of r_al x_l *)
Definition tailsum (r : list (list C)) (x : list C) (a i : nat) : C := Csum (map (fun l => (rx r a l * nth l x C0)%C) (seq i (length x - i))).
(* the partial metric: rows a >= i *)
Definition pmetric (yt : list C) (r : list (list C)) (x : list C) (i : nat) : R := Rsum (map (fun a => Cnorm2 (nth a yt C0 - tailsum r x a a)%C) (seq i (length x - i))).
Definition good (yt : list C) (r : list (list C)) (c : list C) (n i : nat) (k : cand) : Prop :=
  length (cx k) = n /\ length (cd k) = n /\ (forall j, (i <= j < n)%nat -> In (nth j (cx k) C0) c) /\
  (forall a, (a < i)%nat -> nth a (cd k) C0 = (nth a yt C0 - tailsum r (cx k) a i)%C) /\ ct k = pmetric yt r (cx k) i.
Lemma tailsum_S : forall r x a i, (i < length x)%nat -> tailsum r x a i = (rx r a i * nth i x C0 + tailsum r x a (S i))%C.
Proof. intros r x a i H. unfold tailsum. replace (length x - i)%nat with (S (length x - S i)) by lia. reflexivity. Qed.
Lemma tailsum_upd : forall r x a i j s, (j < i)%nat -> tailsum r (upd x j s) a i = tailsum r x a i.
Proof. intros r x a i j s H. unfold tailsum. rewrite upd_length. apply Csum_map_ext. intros l Hl. apply in_seq in Hl. rewrite nth_upd_neq by lia. reflexivity. Qed.
Lemma pmetric_upd : forall yt r x i j s, (j < i)%nat -> pmetric yt r (upd x j s) i = pmetric yt r x i.
Proof. intros yt r x i j s H. unfold pmetric. rewrite upd_length. apply Rsum_map_ext. intros a Ha. apply in_seq in Ha. rewrite tailsum_upd by lia. reflexivity. Qed.
Lemma pmetric_S : forall yt r x i, (i < length x)%nat -> pmetric yt r x i = (Cnorm2 (nth i yt C0 - tailsum r x i i)%C + pmetric yt r x (S i))%R.
Proof. intros yt r x i H. unfold pmetric. replace (length x - i)%nat with (S (length x - S i)) by lia. reflexivity. Qed.
Lemma good_new : forall yt r c n i k s, (i < n)%nat -> good yt r c n (S i) k -> In s c -> good yt r c n i (kb_new r i (k, s)).
Proof.
  intros yt r c n i k s Hi (G1 & G2 & G3 & G4 & G5) Hs. unfold kb_new. cbn [fst snd]. set (d := (nth i (cd k) C0 - rx r i i * s)%C).
  assert (Ed : d = (nth i yt C0 - tailsum r (upd (cx k) i s) i i)%C). { unfold d. rewrite G4 by lia. rewrite (tailsum_S r (upd (cx k) i s) i i) by (rewrite upd_length; lia). rewrite nth_upd_eq by lia. rewrite tailsum_upd by lia. ring. }
  split; [cbn [cx]; rewrite upd_length; exact G1|]. split; [cbn [cd]; rewrite map_length, combine_length, seq_length, upd_length; lia|]. split; [|split].
  - intros j Hj. cbn [cx]. destruct (Nat.eq_dec j i) as [->|Hji]; [rewrite nth_upd_eq by lia; exact Hs|]. rewrite nth_upd_neq by exact Hji. apply G3. lia.
  - intros a Ha. cbn [cd cx]. rewrite (combine_seq (seq 0 (length (cd k))) (upd (cd k) i d) 0%nat C0) by (rewrite seq_length, upd_length; reflexivity). rewrite map_map, seq_length, nth_map_seq by lia. cbn [fst snd]. rewrite seq_nth by lia. cbn [Nat.add].
    destruct (Nat.ltb_spec a i); [|lia]. rewrite nth_upd_neq by lia. rewrite G4 by lia. rewrite (tailsum_S _ _ _ i) by (rewrite upd_length; lia). rewrite nth_upd_eq by lia. rewrite tailsum_upd by lia. ring.
  - cbn [ct cx]. rewrite G5, Cabs_sqr. rewrite (pmetric_S _ _ _ i) by (rewrite upd_length; lia). rewrite pmetric_upd by lia. rewrite Ed. ring.
Qed.
(* at the end the metric is the squared distance in the triangular system *)
Lemma pmetric_0 : forall yt r x n, length x = n -> length r = n -> (forall i j, (j < i < n)%nat -> rx r i j = C0) -> pmetric yt r x 0 = sq_dist yt r x.
Proof.
  intros yt r x n Hx Hr HT. unfold pmetric, sq_dist. rewrite Nat.sub_0_r, Hr, Hx. apply Rsum_map_ext. intros a Ha. apply in_seq in Ha. do 2 f_equal. unfold tailsum, apply_row. rewrite Hx.
  replace n with (a + (n - a))%nat at 2 by lia. rewrite seq_app, map_app, Csum_app. cbn [Nat.add]. rewrite (Csum_map_ext (fun j => (nth j (nth a r []) C0 * nth j x C0)%C) (fun _ => C0) (seq 0 a)).
  - rewrite Csum_map_0. transitivity (C0 + Csum (map (fun l => (rx r a l * nth l x C0)%C) (seq a (n - a))))%C; [ring|reflexivity].
  - intros j Hj. apply in_seq in Hj. fold (rx r a j). rewrite HT by lia. ring.
Qed.

(* the candidate list when coordinates n-1, ..., i have been processed *)
Section RUN.
  Variables (argsort : list R -> list nat) (garbage y : list C) (n : nat) (q r : list (list C)) (c : list C) (K : nat).
  Hypothesis (HS : sorting argsort) (Hc : c <> []) (HK : (1 <= K)%nat) (Hg : length garbage = n).
  Notation yt := (q_yt y n q).
  Definition kb_run (i : nat) : list cand := fold_left (fun cands coor => kb_step argsort r c K coor cands) (rev (seq i (n - i))) [{| cx := garbage; cd := yt; ct := 0%R |}].
  Lemma kb_run_n : kb_run n = [{| cx := garbage; cd := yt; ct := 0%R |}].
  Proof. unfold kb_run. rewrite Nat.sub_diag. reflexivity. Qed.
  Lemma kb_run_step : forall i, (i < n)%nat -> kb_run i = kb_step argsort r c K i (kb_run (S i)).
  Proof. intros i Hi. unfold kb_run. replace (n - i)%nat with (S (n - S i)) by lia. cbn [seq rev]. rewrite fold_left_app. reflexivity. Qed.
  Lemma kb_run_0 : kb_cands argsort garbage y n q r c K = kb_run 0.
  Proof. unfold kb_cands, kb_run. rewrite Nat.sub_0_r. reflexivity. Qed.
  Lemma good_start : good yt r c n n {| cx := garbage; cd := yt; ct := 0%R |}.
  Proof.
    split; [exact Hg|]. split; [apply q_yt_length|]. split; [intros; lia|]. split.
    - intros a Ha. cbn [cd cx]. unfold tailsum. rewrite Hg, Nat.sub_diag. cbn [seq map Csum fold_right]. ring.
    - cbn [ct cx]. unfold pmetric. rewrite Hg, Nat.sub_diag. reflexivity.
  Qed.
  Lemma good_run : forall i, (i <= n)%nat -> kb_run i <> [] /\ Forall (good yt r c n i) (kb_run i) /\ StronglySorted (fun a b => (ct a <= ct b)%R) (kb_run i) /\ (length (kb_run i) <= length c ^ (n - i))%nat.
  Proof.
    assert (G : forall d, (d <= n)%nat -> let i := (n - d)%nat in kb_run i <> [] /\ Forall (good yt r c n i) (kb_run i) /\ StronglySorted (fun a b => (ct a <= ct b)%R) (kb_run i) /\ (length (kb_run i) <= length c ^ d)%nat).
    { induction d as [|d IH]; intros Hd i.
      - unfold i. rewrite Nat.sub_0_r, kb_run_n. split; [discriminate|]. split; [constructor; [apply good_start|constructor]|]. split; [repeat constructor|cbn; lia].
      - assert (Hi : (i < n)%nat) by (unfold i; lia). specialize (IH ltac:(lia)). cbv zeta in IH. replace (n - d)%nat with (S i) in IH by (unfold i; lia). destruct IH as (I1 & I2 & I3 & I4). rewrite kb_run_step by exact Hi.
        destruct (kb_step_spec argsort r c K i (kb_run (S i)) HS) as (L & P1 & P2 & P3 & ->). assert (Hcl : (1 <= length c)%nat) by (destruct c; [congruence|cbn; lia]). assert (Hrl : (1 <= length (kb_run (S i)))%nat) by (destruct (kb_run (S i)); [congruence|cbn; lia]).
        assert (Lne : (1 <= length L)%nat) by (rewrite P3; nia). split; [|split; [|split]].
        + intros E. apply (f_equal (@length cand)) in E. rewrite firstn_length in E. cbn in E. lia.
        + apply Forall_forall. intros k Hk. assert (Hk' : In k L) by (rewrite <- (firstn_skipn (Nat.min (length L) K) L); apply in_or_app; left; exact Hk). apply (Permutation_in _ P1) in Hk'. apply in_map_iff in Hk' as ((k0 & s) & <- & Hp). apply pairs_in in Hp as (Hk0 & Hs). rewrite Forall_forall in I2. apply good_new; auto.
        + clear - P2. generalize (Nat.min (length L) K) as t. induction P2 as [|x l H1 IH H2]; intros [|t]; cbn [firstn]; try constructor; [apply IH|]. rewrite Forall_forall in *. intros z Hz. apply H2. rewrite <- (firstn_skipn t l). apply in_or_app. left. exact Hz.
        + rewrite firstn_length, P3. rewrite Nat.pow_succ_r'. etransitivity; [apply Nat.le_min_r|]. rewrite Nat.mul_comm. apply Nat.le_trans with (length c * length (kb_run (S i)))%nat; [lia|]. apply Nat.mul_le_mono_l, I4. }
    intros i Hi. specialize (G (n - i)%nat ltac:(lia)). cbv zeta in G. replace (n - (n - i))%nat with i in G by lia. exact G.
  Qed.
  (* nothing is dropped while the number of hypotheses stays within K *)
  Lemma run_complete : forall i, (i <= n)%nat -> (length c ^ (n - i) <= K)%nat -> forall x, vector_of c n x -> exists k, In k (kb_run i) /\ forall j, (i <= j < n)%nat -> nth j (cx k) C0 = nth j x C0.
  Proof.
    assert (G : forall d, (d <= n)%nat -> let i := (n - d)%nat in (length c ^ d <= K)%nat -> forall x, vector_of c n x -> exists k, In k (kb_run i) /\ forall j, (i <= j < n)%nat -> nth j (cx k) C0 = nth j x C0).
    { induction d as [|d IH]; intros Hd i HKd x Hx.
      - unfold i. rewrite Nat.sub_0_r, kb_run_n. eexists. split; [left; reflexivity|]. intros; lia.
      - assert (Hi : (i < n)%nat) by (unfold i; lia). assert (Hcl : (1 <= length c)%nat) by (destruct c; [congruence|cbn; lia]). assert (HKd' : (length c ^ d <= K)%nat) by (rewrite Nat.pow_succ_r' in HKd; nia). specialize (IH ltac:(lia) HKd' x Hx). replace (n - d)%nat with (S i) in IH by (unfold i; lia). destruct IH as (k & Hk & HA).
        destruct (good_run (S i) ltac:(lia)) as (_ & I2 & _ & I4). replace (n - S i)%nat with d in I4 by (unfold i; lia). rewrite kb_run_step by exact Hi. destruct (kb_step_spec argsort r c K i (kb_run (S i)) HS) as (L & P1 & P2 & P3 & ->).
        rewrite Nat.min_l by (rewrite P3; rewrite Nat.pow_succ_r' in HKd; nia). rewrite firstn_all. exists (kb_new r i (k, nth i x C0)). destruct Hx as (Hx1 & Hx2). rewrite Forall_forall in Hx2. split.
        + apply (Permutation_in _ (Permutation_sym P1)). apply in_map, pairs_in. split; [exact Hk|]. apply Hx2, nth_In. lia.
        + intros j Hj. cbn [kb_new cx fst snd]. rewrite Forall_forall in I2. destruct (I2 k Hk) as (HL & _). destruct (Nat.eq_dec j i) as [->|Hji]; [apply nth_upd_eq; lia|]. rewrite nth_upd_neq by exact Hji. apply HA. lia. }
    intros i Hi HKi. specialize (G (n - i)%nat ltac:(lia)). cbv zeta in G. replace (n - (n - i))%nat with i in G by lia. apply G, HKi.
  Qed.
  (* a step without the final cut contains the extension of every candidate, and its first entry is the best *)
  Lemma step_head : forall i, (i < n)%nat -> exists k0 rest, kb_run i = k0 :: rest /\ forall k s, In k (kb_run (S i)) -> In s c -> (ct k0 <= ct (kb_new r i (k, s)))%R.
  Proof.
    intros i Hi. destruct (good_run i ltac:(lia)) as (N1 & _). rewrite kb_run_step in N1 |- * by exact Hi. destruct (kb_step_spec argsort r c K i (kb_run (S i)) HS) as (L & P1 & P2 & P3 & E). rewrite E in *.
    destruct L as [|k0 L']; [cbn in N1; congruence|]. destruct (Nat.min (length (k0 :: L')) K) as [|t]; [cbn in N1; congruence|]. cbn [firstn]. exists k0, (firstn t L'). split; [reflexivity|]. intros k s Hk Hs.
    assert (I : In (kb_new r i (k, s)) (k0 :: L')) by (apply (Permutation_in _ (Permutation_sym P1)), in_map, pairs_in; auto). inversion P2 as [|? ? _ HF]. subst. destruct I as [<-|I]; [apply Rle_refl|]. rewrite Forall_forall in HF. apply HF, I.
  Qed.
  Lemma suffix_eq : forall (x x' : list C), length x = n -> length x' = n -> (forall j, (0 <= j < n)%nat -> nth j x C0 = nth j x' C0) -> x = x'.
  Proof. intros x x' H1 H2 H. apply (nth_ext _ _ C0 C0); [lia|]. intros j Hj. apply H. lia. Qed.
  Variables (h : list (list C)).
  Hypothesis (HQ : is_qr h n q r) (Hy : length y = length h).
  Lemma good_vector : forall k, good yt r c n 0 k -> vector_of c n (cx k).
  Proof. intros k (G1 & _ & G3 & _). split; [exact G1|]. apply Forall_forall. intros s Hs. destruct (In_nth _ _ C0 Hs) as (j & Hj & <-). apply G3. lia. Qed.
  Lemma good_metric : exists c0, (forall k, good yt r c n 0 k -> sq_dist y h (cx k) = (ct k + c0)%R) /\ forall x, length x = n -> sq_dist y h x = (pmetric yt r x 0 + c0)%R.
  Proof.
    destruct (qr_dist y h n q r HQ Hy) as (c0 & H0). exists c0. destruct HQ as (_ & _ & _ & R1 & _ & _ & _ & HT). assert (E : forall x, length x = n -> sq_dist y h x = (pmetric yt r x 0 + c0)%R) by (intros x Hx; rewrite H0 by exact Hx; rewrite (pmetric_0 yt r x n) by assumption; reflexivity).
    split; [|exact E]. intros k (G1 & _ & _ & _ & G5). rewrite G5. apply E, G1.
  Qed.
  Lemma kb_optimal : (length c ^ (n - 1) <= K)%nat -> exists k0 rest, kb_run 0 = k0 :: rest /\ ml_decision y h c n (cx k0).
  Proof.
    intros HKm. destruct (good_run 0 ltac:(lia)) as (N0 & F0 & _). destruct good_metric as (c0 & M1 & M2). destruct (Nat.eq_dec n 0) as [En|En].
    - destruct (kb_run 0) as [|k0 rest] eqn:E; [congruence|]. exists k0, rest. split; [reflexivity|]. inversion F0 as [|? ? G _]. subst. split; [apply good_vector, G|]. intros x' (Hx' & _). destruct G as (G1 & _). replace x' with (cx k0); [apply Rle_refl|]. apply suffix_eq; [exact G1|exact Hx'|]. intros j Hj. lia.
    - destruct (step_head 0 ltac:(lia)) as (k0 & rest & E & HB). exists k0, rest. split; [exact E|]. rewrite E in F0. inversion F0 as [|? ? G _]. subst. split; [apply good_vector, G|]. intros x' Hx'.
      destruct (run_complete 1 ltac:(lia) HKm x' Hx') as (k & Hk & HA). destruct (good_run 1 ltac:(lia)) as (_ & F1 & _). rewrite Forall_forall in F1. destruct Hx' as (Hx1 & Hx2). rewrite Forall_forall in Hx2. assert (X0 : In (nth 0 x' C0) c) by (apply Hx2, nth_In; lia). specialize (HB k (nth 0 x' C0) Hk X0).
      assert (G' : good yt r c n 0 (kb_new r 0 (k, nth 0 x' C0))). { apply good_new; [lia|apply F1, Hk|]. apply Hx2, nth_In. lia. }
      replace x' with (cx (kb_new r 0 (k, nth 0 x' C0))); [rewrite (M1 _ G), (M1 _ G'); lra|]. destruct (F1 k Hk) as (L1 & _). apply suffix_eq; [apply G'|exact Hx1|]. intros j Hj. cbn [kb_new cx fst snd]. destruct j as [|j]; [apply nth_upd_eq; lia|]. rewrite nth_upd_neq by lia. apply HA. lia.
  Qed.
  (* noise-free: y = h x and r has no zero on its diagonal *)
  Lemma kb_noiseless : forall x, vector_of c n x -> y = map (fun row => apply_row row x) h -> (forall a, (a < n)%nat -> rx r a a <> C0) -> exists k0 rest, kb_run 0 = k0 :: rest /\ cx k0 = x.
  Proof.
    intros x Hx Ey HD. destruct Hx as (Hx1 & Hx2). rewrite Forall_forall in Hx2. assert (HQ' := HQ). destruct HQ' as (_ & _ & Q3 & R1 & _ & _ & HO & HT).
    assert (YT : forall a, (a < n)%nat -> nth a yt C0 = tailsum r x a a).
    { intros a Ha. rewrite q_yt_nth by (try lia; rewrite Q3; exact Hy). rewrite Q3. transitivity (Csum (map (fun i => Csum (map (fun k => (Cconj (nth a (nth i q []) C0) * nth k (nth i q []) C0 * apply_row (nth k r []) x)%C) (seq 0 n))) (seq 0 (length h)))).
      - apply Csum_map_ext. intros i Hi. apply in_seq in Hi. rewrite Ey, (nth_map_lt _ _ _ [] C0) by lia. rewrite (qr_apply h n q r x i HQ Hx1) by lia. rewrite <- Csum_map_mul. apply Csum_map_ext. intros k _. ring.
      - rewrite Csum_swap. rewrite (Csum_map_ext _ (fun k => (if (a =? k)%nat then C1 else C0) * apply_row (nth k r []) x)%C).
        + rewrite (Csum_single _ n a); [|exact Ha|intros j _ Hj; destruct (Nat.eqb_spec a j); [lia|ring]]. rewrite Nat.eqb_refl. unfold apply_row, tailsum. rewrite Hx1. replace n with (a + (n - a))%nat at 1 by lia. rewrite seq_app, map_app, Csum_app. cbn [Nat.add]. rewrite (Csum_map_ext _ (fun _ => C0) (seq 0 a)); [rewrite Csum_map_0; unfold rx; ring|]. intros j Hj. apply in_seq in Hj. rewrite HT by lia. ring.
        + intros k Hk. apply in_seq in Hk. rewrite <- (HO a k) by lia. rewrite <- (map_map (fun i => (Cconj (nth a (nth i q []) C0) * nth k (nth i q []) C0)%C) (fun u => (u * apply_row (nth k r []) x)%C)). induction (map _ (seq 0 (length h))) as [|u us IH]; cbn [map Csum fold_right]; [ring|]. unfold Csum in IH. rewrite IH. ring. }
    (* equal suffixes give equal sums *)
    assert (TS : forall x' a i, length x' = n -> (forall j, (i <= j < n)%nat -> nth j x' C0 = nth j x C0) -> tailsum r x' a i = tailsum r x a i).
    { intros x' a i Hx' H. unfold tailsum. rewrite Hx', Hx1. apply Csum_map_ext. intros j Hj. apply in_seq in Hj. rewrite H by lia. reflexivity. }
    assert (G : forall d, (d <= n)%nat -> let i := (n - d)%nat in exists k0 rest, kb_run i = k0 :: rest /\ forall j, (i <= j < n)%nat -> nth j (cx k0) C0 = nth j x C0).
    { induction d as [|d IH]; intros Hd i.
      - unfold i. rewrite Nat.sub_0_r, kb_run_n. eexists _, []. split; [reflexivity|]. intros; lia.
      - assert (Hi : (i < n)%nat) by (unfold i; lia). specialize (IH ltac:(lia)). cbv zeta in IH. replace (n - d)%nat with (S i) in IH by (unfold i; lia). destruct IH as (k1 & rest1 & E1 & HA1).
        destruct (step_head i Hi) as (k0 & rest & E0 & HB). exists k0, rest. split; [exact E0|]. destruct (good_run (S i) ltac:(lia)) as (_ & F1 & _). destruct (good_run i ltac:(lia)) as (_ & F0 & _). rewrite E0 in F0. rewrite E1 in F1. inversion F0 as [|? ? G0 _]. inversion F1 as [|? ? G1 _]. subst.
        assert (XI : In (nth i x C0) c) by (apply Hx2, nth_In; lia).
        assert (Z1 : ct (kb_new r i (k1, nth i x C0)) = 0%R).
        { destruct (good_new yt r c n i k1 (nth i x C0) Hi G1 XI) as (L1 & _ & _ & _ & ->). unfold pmetric. rewrite L1. rewrite (Rsum_map_ext _ (fun _ => 0%R)); [rewrite Rsum_const; ring|]. intros a Ha. apply in_seq in Ha. rewrite TS with (x' := cx (kb_new r i (k1, nth i x C0))).
          - rewrite YT by lia. replace (_ - _)%C with C0 by ring. apply Cnorm2_C0.
          - exact L1.
          - intros j Hj. cbn [kb_new cx fst snd]. destruct G1 as (L2 & _). destruct (Nat.eq_dec j i) as [->|Hji]; [apply nth_upd_eq; lia|]. rewrite nth_upd_neq by exact Hji. apply HA1. lia. }
        specialize (HB k1 (nth i x C0)). rewrite E1 in HB. specialize (HB (or_introl eq_refl) XI). rewrite Z1 in HB. destruct G0 as (L0 & _ & _ & _ & M0).
        (* the best candidate has metric zero; back substitution *)
        assert (ZA : forall a, (i <= a < n)%nat -> nth a yt C0 = tailsum r (cx k0) a a).
        { intros a Ha. unfold pmetric in M0. rewrite L0 in M0. assert (NN : forall v, In v (map (fun a => Cnorm2 (nth a yt C0 - tailsum r (cx k0) a a)%C) (seq i (n - i))) -> (0 <= v)%R) by (intros v Hv; apply in_map_iff in Hv as (b & <- & _); apply Cnorm2_nonneg).
          pose proof (Rsum_nonneg _ NN) as P. assert (Z : Rsum (map (fun a => Cnorm2 (nth a yt C0 - tailsum r (cx k0) a a)%C) (seq i (n - i))) = 0%R) by lra.
          pose proof (Rsum_zero _ NN Z (Cnorm2 (nth a yt C0 - tailsum r (cx k0) a a)%C)) as W. assert (W' : Cnorm2 (nth a yt C0 - tailsum r (cx k0) a a)%C = 0%R) by (apply W, in_map_iff; exists a; split; [reflexivity|apply in_seq; lia]).
          apply Cnorm2_0 in W'. transitivity (tailsum r (cx k0) a a + (nth a yt C0 - tailsum r (cx k0) a a))%C; [ring|]. rewrite W'. ring. }
        assert (BS : forall e, (e <= n - i)%nat -> forall j, (n - e <= j < n)%nat -> nth j (cx k0) C0 = nth j x C0).
        { induction e as [|e IHe]; intros He j Hj; [lia|]. destruct (Nat.eq_dec j (n - S e)) as [->|Hne]; [|apply IHe; lia]. set (a := (n - S e)%nat) in *. assert (Ha : (i <= a < n)%nat) by (unfold a; lia).
          assert (E : tailsum r (cx k0) a a = tailsum r x a a) by (rewrite <- ZA, <- YT by lia; reflexivity). rewrite !(tailsum_S _ _ a a) in E by lia. rewrite (TS (cx k0) a (S a) L0) in E by (intros j' Hj'; apply IHe; lia).
          assert (E' : (rx r a a * (nth a (cx k0) C0 - nth a x C0))%C = C0). { transitivity ((rx r a a * nth a (cx k0) C0 + tailsum r x a (S a)) - (rx r a a * nth a x C0 + tailsum r x a (S a)))%C; [ring|]. rewrite E. ring. }
          assert (N : (Cnorm2 (rx r a a) * Cnorm2 (nth a (cx k0) C0 - nth a x C0)%C)%R = 0%R) by (rewrite <- Cnorm2_mul, E'; apply Cnorm2_C0). apply Rmult_integral in N as [N|N]; apply Cnorm2_0 in N; [exfalso; apply (HD a); [lia|exact N]|].
          transitivity (nth a x C0 + (nth a (cx k0) C0 - nth a x C0))%C; [ring|]. rewrite N. ring. }
        intros j Hj. apply (BS (n - i)%nat); lia. }
    destruct (G n ltac:(lia)) as (k0 & rest & E & HA). rewrite Nat.sub_diag in E. exists k0, rest. split; [exact E|]. destruct (good_run 0 ltac:(lia)) as (_ & F0 & _). rewrite E in F0. inversion F0 as [|? ? G0 _]. apply suffix_eq; [apply G0|exact Hx1|]. rewrite Nat.sub_diag in HA. exact HA.
  Qed.
End RUN.

(* ---------------------------------------------------------------- full column rank *)
Definition Cinv (a : C) : C := mkC (re a / Cnorm2 a) (- im a / Cnorm2 a).
Lemma Cinv_r : forall a, a <> C0 -> (a * Cinv a)%C = C1.
Proof.
  intros a Ha. assert (N : Cnorm2 a <> 0%R) by (intros E; apply Ha, Cnorm2_0, E). apply C_ext; unfold Cmul, Cinv, C1; cbn [re im]; unfold Cnorm2 in *; field; exact N.
Qed.
(* back substitution in the first a rows *)
Lemma back_subst : forall (r : nat -> nat -> C) a (t : nat -> C), (forall l, (l < a)%nat -> r l l <> C0) ->
  exists v : nat -> C, forall l, (l < a)%nat -> Csum (map (fun k => (r l k * v k)%C) (seq l (a - l))) = t l.
Proof.
  intros r a. induction a as [|a IH]; intros t HD; [exists (fun _ => C0); intros; lia|]. set (va := (t a * Cinv (r a a))%C). destruct (IH (fun l => t l - r l a * va)%C) as (v & Hv); [intros l Hl; apply HD; lia|].
  exists (fun k => if (k =? a)%nat then va else v k). intros l Hl. destruct (Nat.eq_dec l a) as [->|Hla].
  - replace (S a - a)%nat with 1%nat by lia. cbn [seq map Csum fold_right]. rewrite Nat.eqb_refl. unfold va. transitivity (t a * (r a a * Cinv (r a a)))%C; [ring|]. rewrite Cinv_r by (apply HD; lia). ring.
  - replace (S a - l)%nat with ((a - l) + 1)%nat by lia. rewrite seq_app, map_app, Csum_app. replace (l + (a - l))%nat with a by lia. cbn [seq map]. rewrite Nat.eqb_refl. rewrite (Csum_map_ext _ (fun k => (r l k * v k)%C) (seq l (a - l))).
    + rewrite Hv by lia. cbn [Csum fold_right]. ring.
    + intros k Hk. apply in_seq in Hk. destruct (Nat.eqb_spec k a); [lia|reflexivity].
Qed.
Lemma full_rank_diag : forall h n q r, is_qr h n q r -> (forall v, length v = n -> (forall row, In row h -> apply_row row v = C0) -> v = repeat C0 n) -> forall a, (a < n)%nat -> rx r a a <> C0.
Proof.
  intros h n q r HQ Inj a Ha. assert (Ceq : forall z : C, {z = C0} + {z <> C0}). { intros z. destruct (Req_EM_T (Cnorm2 z) 0) as [E|E]; [left; apply Cnorm2_0, E|right; intros ->; apply E, Cnorm2_C0]. }
  revert a Ha. induction a as [a IH] using lt_wf_ind. intros Ha Ez. assert (HQ' := HQ). destruct HQ' as (_ & _ & _ & R1 & _ & _ & _ & HT).
  destruct (back_subst (rx r) a (fun l => - rx r l a)%C) as (v & Hv); [intros l Hl; apply IH; lia|].
  set (w := map (fun k => if (k <? a)%nat then v k else if (k =? a)%nat then C1 else C0) (seq 0 n)). assert (Lw : length w = n) by (unfold w; rewrite map_length; apply seq_length).
  assert (Z : forall k, (k < n)%nat -> apply_row (nth k r []) w = C0).
  { intros k Hk. unfold apply_row. rewrite Lw. replace n with (a + (1 + (n - a - 1)))%nat by lia. rewrite !seq_app, !map_app, !Csum_app. cbn [Nat.add seq map Csum fold_right].
    assert (W : forall j, (j < n)%nat -> nth j w C0 = if (j <? a)%nat then v j else if (j =? a)%nat then C1 else C0) by (intros j Hj; unfold w; rewrite nth_map_seq by exact Hj; reflexivity).
    rewrite (W a Ha), Nat.ltb_irrefl, Nat.eqb_refl. rewrite (Csum_map_ext _ (fun _ => C0) (seq (a + 1) _)).
    2:{ intros j Hj. apply in_seq in Hj. rewrite W by lia. destruct (Nat.ltb_spec j a); [lia|]. destruct (Nat.eqb_spec j a); [lia|]. ring. }
    rewrite Csum_map_0. fold (rx r k a). destruct (Nat.lt_ge_cases k a) as [Hka|Hka].
    - replace a with (k + (a - k))%nat at 1 by lia. rewrite seq_app, map_app, Csum_app. rewrite (Csum_map_ext _ (fun _ => C0) (seq 0 k)); [|intros j Hj; apply in_seq in Hj; rewrite HT by lia; ring]. rewrite Csum_map_0. cbn [Nat.add].
      rewrite (Csum_map_ext _ (fun j => (rx r k j * v j)%C) (seq k (a - k))); [rewrite Hv by exact Hka; ring|]. intros j Hj. apply in_seq in Hj. rewrite W by lia. destruct (Nat.ltb_spec j a); [reflexivity|lia].
    - rewrite (Csum_map_ext _ (fun _ => C0) (seq 0 a)); [|intros j Hj; apply in_seq in Hj; rewrite HT by lia; ring]. rewrite Csum_map_0. assert (E : rx r k a = C0) by (destruct (Nat.eq_dec k a) as [->|Hne]; [exact Ez|apply HT; lia]). rewrite E. ring. }
  assert (E : w = repeat C0 n). { apply Inj; [exact Lw|]. intros row Hrow. destruct (In_nth _ _ [] Hrow) as (i & Hi & <-). rewrite (qr_apply h n q r w i HQ Lw Hi). rewrite (Csum_map_ext _ (fun _ => C0)); [apply Csum_map_0|]. intros k Hk. apply in_seq in Hk. rewrite Z by lia. ring. }
  apply (f_equal (fun l => nth a l C0)) in E. unfold w in E. rewrite nth_map_seq, Nat.ltb_irrefl, Nat.eqb_refl, nth_repeat in E by exact Ha. injection E. intros; lra.
Qed.
