(* Proofs about mimo_ml, bit_lvl_repr and max_log_approx. *)
From Coq Require Import Permutation Sorted.
From Verif Require Import Base UtilModel UtilProofs Cplx ModemModel ModemProofs MimoModel MimoSpec.
Open Scope Z_scope.

Lemma combine_seq : forall {A B} (a : list A) (b : list B) da db, length a = length b -> combine a b = map (fun j => (nth j a da, nth j b db)) (seq 0 (length a)).
Proof.
  intros A B a. induction a as [|x a IH]; intros [|y b] da db H; try discriminate; [reflexivity|]. cbn [combine length seq map nth]. f_equal. rewrite (IH b da db) by (cbn in H; lia). rewrite <- seq_shift, map_map. reflexivity.
Qed.
Lemma map_nth_seq_id : forall {A} (l : list A) d, map (fun j => nth j l d) (seq 0 (length l)) = l.
Proof. intros A l d. induction l as [|x l IH]; [reflexivity|]. cbn [length seq map nth]. f_equal. rewrite <- seq_shift, map_map. exact IH. Qed.
Lemma dotC_apply : forall row x, length row = length x -> dotC row x = apply_row row x.
Proof. intros row x H. unfold dotC, apply_row. rewrite (combine_seq row x C0 C0 H), map_map, H. reflexivity. Qed.
Lemma broadcast_same : forall {A B} (a : list A) (b : list B), length a = length b -> np_broadcast2 a b = Ok (combine a b).
Proof. intros A B a b H. unfold np_broadcast2. rewrite H, Nat.eqb_refl. reflexivity. Qed.
Lemma columns_nth : forall n h i, columns n h -> (i < length h)%nat -> length (nth i h []) = n.
Proof. intros n h i H Hi. unfold columns in H. rewrite Forall_forall in H. apply H, nth_In, Hi. Qed.
Lemma matvec_apply : forall h n x, columns n h -> length x = n -> matvec h x = map (fun row => apply_row row x) h.
Proof. intros h n x H Hx. unfold matvec. apply map_ext_in. intros row Hr. unfold columns in H. rewrite Forall_forall in H. apply dotC_apply. rewrite (H row Hr). symmetry. exact Hx. Qed.
Lemma dist2_ok : forall y h n x, columns n h -> length y = length h -> length x = n -> dist2 y h x = Ok (sq_dist y h x).
Proof.
  intros y h n x H Hy Hx. unfold dist2. rewrite (matvec_apply h n) by assumption. rewrite broadcast_same by (rewrite map_length; exact Hy). cbn [bind]. f_equal. unfold sq_dist.
  rewrite (combine_seq y _ C0 (apply_row [] x)) by (rewrite map_length; exact Hy). rewrite map_map, Hy. cbn [fst snd]. f_equal. apply map_ext. intros i. rewrite (map_nth (fun row => apply_row row x)). reflexivity.
Qed.
Lemma sq_dist_nonneg : forall y h x, (0 <= sq_dist y h x)%R.
Proof. intros y h x. apply Rsum_nonneg. intros v Hv. apply in_map_iff in Hv as (i & <- & _). apply Cnorm2_nonneg. Qed.

(* ---------------------------------------------------------------- enumeration of all vectors *)
Definition digits (m n k : nat) : list nat := map (fun i => (k / m ^ (n - i - 1)) mod m)%nat (seq 0 n).
Lemma digits_S : forall m n k, (1 <= m)%nat -> (k < m ^ S n)%nat -> digits m (S n) k = (k / m ^ n)%nat :: digits m n (k mod m ^ n).
Proof.
  intros m n k Hm Hk. unfold digits. cbn [seq map]. f_equal.
  - rewrite Nat.sub_0_r. replace (S n - 1)%nat with n by lia. apply Nat.mod_small. apply Nat.div_lt_upper_bound; [apply Nat.pow_nonzero; lia|]. rewrite Nat.mul_comm. exact Hk.
  - rewrite <- seq_shift, map_map. apply map_ext_in. intros i Hi. apply in_seq in Hi. replace (S n - S i - 1)%nat with (n - i - 1)%nat by lia.
    replace n with ((n - i - 1) + S i)%nat at 2 by lia. rewrite Nat.pow_add_r. assert (m ^ (n - i - 1) <> 0)%nat by (apply Nat.pow_nonzero; lia). assert (m ^ S i <> 0)%nat by (apply Nat.pow_nonzero; lia).
    rewrite Nat.mod_mul_r by assumption. rewrite (Nat.add_comm (k mod m ^ (n - i - 1))), Nat.mul_comm, Nat.div_add_l by assumption.
    rewrite (Nat.div_small (k mod _)) by (apply Nat.mod_upper_bound; assumption). rewrite Nat.add_0_r. rewrite Nat.pow_succ_r'. rewrite Nat.mod_mul_r by (try apply Nat.pow_nonzero; lia).
    rewrite Nat.mul_comm, Nat.mod_add by lia. rewrite Nat.mod_mod by lia. reflexivity.
Qed.
Lemma digits_all : forall m ds, (1 <= m)%nat -> Forall (fun d => (d < m)%nat) ds -> exists k, (k < m ^ length ds)%nat /\ digits m (length ds) k = ds.
Proof.
  intros m ds Hm H. induction ds as [|d ds IH].
  - exists 0%nat. split; [cbn; lia|reflexivity].
  - inversion H as [|? ? Hd Hds]. subst. destruct (IH Hds) as (k & Hk & E). exists (d * m ^ length ds + k)%nat. cbn [length].
    assert (L : (d * m ^ length ds + k < m ^ S (length ds))%nat) by (rewrite Nat.pow_succ_r'; nia). split; [exact L|]. rewrite digits_S by assumption. assert (m ^ length ds <> 0)%nat by lia.
    f_equal; [rewrite Nat.div_add_l, Nat.div_small by assumption; lia|]. rewrite Nat.add_comm, Nat.mod_add, Nat.mod_small by assumption. exact E.
Qed.

Lemma concat_repeat_nth : forall {A} (c : list A) t k d, (k < length c * t)%nat -> nth k (concat (repeat c t)) d = nth (k mod length c) c d.
Proof.
  intros A c t k d Hk. destruct c as [|x c']; [cbn in Hk; lia|]. set (c := x :: c') in *. assert (HL : (1 <= length c)%nat) by (cbn; lia).
  rewrite (Nat.div_mod k (length c)) at 1 by lia. rewrite Nat.mul_comm. rewrite (concat_nth_uniform d (length c)).
  - rewrite (nth_indep _ [] c) by (rewrite repeat_length; apply Nat.div_lt_upper_bound; lia). rewrite nth_repeat. reflexivity.
  - intros y Hy. apply repeat_spec in Hy. subst y. reflexivity.
  - apply Nat.mod_upper_bound. lia.
Qed.
Lemma flat_repeat_nth : forall {A} (l : list A) t k d, (k < length l * t)%nat -> nth k (flat_map (fun s => repeat s t) l) d = nth (k / t) l d.
Proof.
  intros A l t k d Hk. assert (Ht : (1 <= t)%nat) by (destruct t; lia). rewrite flat_map_concat_map. rewrite (Nat.div_mod k t) at 1 by lia. rewrite Nat.mul_comm. rewrite (concat_nth_uniform d t).
  - assert (k / t < length l)%nat by (apply Nat.div_lt_upper_bound; lia). rewrite (nth_map_lt _ _ _ d []) by assumption. rewrite (nth_indep _ d (nth (k / t) l d)) by (rewrite repeat_length; apply Nat.mod_upper_bound; lia). apply nth_repeat.
  - intros y Hy. apply in_map_iff in Hy as (s & <- & _). apply repeat_length.
  - apply Nat.mod_upper_bound. lia.
Qed.
Lemma ideal_column : forall c n k, (1 <= length c)%nat -> (k < length c ^ n)%nat -> column (x_ideal c n) k = map (fun d => nth d c C0) (digits (length c) n k).
Proof.
  intros c n k Hm Hk. set (m := length c) in *. unfold column, x_ideal, digits. rewrite !map_map. apply map_ext_in. intros i Hi. apply in_seq in Hi. unfold ideal_row. fold m.
  assert (E : (m ^ n = m ^ (n - i - 1) * (m * m ^ i))%nat) by (rewrite <- Nat.pow_succ_r', <- Nat.pow_add_r; f_equal; lia). assert (P : (m ^ (n - i - 1) <> 0)%nat) by (apply Nat.pow_nonzero; lia).
  assert (CL : length (concat (repeat c (m ^ i))) = (m * m ^ i)%nat). { rewrite (concat_length_uniform m), repeat_length; [reflexivity|]. intros x Hx. apply repeat_spec in Hx. subst x. reflexivity. }
  rewrite flat_repeat_nth by (rewrite CL; lia). apply concat_repeat_nth. apply Nat.div_lt_upper_bound; [exact P|]. fold m. lia.
Qed.
Lemma digits_lt : forall m n k, (1 <= m)%nat -> Forall (fun d => (d < m)%nat) (digits m n k).
Proof. intros m n k Hm. apply Forall_forall. intros d Hd. apply in_map_iff in Hd as (i & <- & _). apply Nat.mod_upper_bound. lia. Qed.
Lemma ideal_vector : forall c n k, (1 <= length c)%nat -> (k < length c ^ n)%nat -> vector_of c n (column (x_ideal c n) k).
Proof.
  intros c n k Hm Hk. rewrite ideal_column by assumption. split; [unfold digits; rewrite !map_length; apply seq_length|]. apply Forall_forall. intros s Hs. apply in_map_iff in Hs as (d & <- & Hd). apply nth_In. pose proof (digits_lt (length c) n k Hm) as F. rewrite Forall_forall in F. apply F, Hd.
Qed.
Lemma ideal_all : forall c n x, vector_of c n x -> (1 <= length c)%nat -> exists k, (k < length c ^ n)%nat /\ column (x_ideal c n) k = x.
Proof.
  intros c n x (HL & HF) Hm. assert (G : exists ds, Forall (fun d => (d < length c)%nat) ds /\ map (fun d => nth d c C0) ds = x).
  { clear HL Hm. induction x as [|s x IH]; [exists []; auto|]. inversion HF as [|? ? Hs Hx]. subst. destruct (IH Hx) as (ds & F & E). destruct (In_nth c s C0 Hs) as (d & Hd & Ed). exists (d :: ds). split; [constructor; assumption|]. cbn [map]. rewrite Ed, E. reflexivity. }
  destruct G as (ds & F & E). assert (HD : length ds = n) by (rewrite <- HL, <- E, map_length; reflexivity). destruct (digits_all (length c) ds Hm F) as (k & Hk & Ek). rewrite HD in *. exists k. split; [exact Hk|]. rewrite ideal_column, Ek by assumption. exact E.
Qed.

(* ---------------------------------------------------------------- mimo_ml *)
Lemma mimo_ml_ok : forall y h n c, columns n h -> length y = length h -> c <> [] -> exists x, mimo_ml y h n c = Ok x /\ ml_decision y h c n x.
Proof.
  intros y h n c H Hy Hc. assert (Hm : (1 <= length c)%nat) by (destruct c; [congruence|cbn; lia]). unfold mimo_ml. set (N := (length c ^ n)%nat). assert (HN : (1 <= N)%nat) by (pose proof (Nat.pow_nonzero (length c) n ltac:(lia)); unfold N; lia).
  rewrite (mapM_Ok _ (fun k => sqrt (sq_dist y h (column (x_ideal c n) k)))).
  2:{ intros k Hk. apply in_seq in Hk. rewrite (dist2_ok y h n); [reflexivity|exact H|exact Hy|]. apply ideal_vector; [exact Hm|]. unfold N in Hk. lia. }
  cbn [bind]. set (norms := map _ _). assert (LN : length norms = N) by (unfold norms; rewrite map_length; apply seq_length). destruct (argmin_ok norms) as (k & E & K1 & K2 & K3); [intros F; rewrite F in LN; cbn in LN; lia|].
  rewrite E. cbn [bind]. rewrite LN in K1, K2. eexists. split; [reflexivity|]. split; [apply ideal_vector; assumption|]. intros x' Hx'. destruct (ideal_all c n x' Hx' Hm) as (j & Hj & <-). specialize (K2 j Hj).
  unfold norms in K2. rewrite !nth_map_seq in K2 by assumption. apply sqrt_le_0; [apply sq_dist_nonneg|apply sq_dist_nonneg|exact K2].
Qed.
Lemma sq_dist_0 : forall h x, sq_dist (map (fun row => apply_row row x) h) h x = 0%R.
Proof.
  intros h x. unfold sq_dist. rewrite (Rsum_map_ext _ (fun _ => 0%R)); [rewrite Rsum_const; ring|]. intros i Hi. apply in_seq in Hi. rewrite (nth_map_lt _ _ _ [] C0) by lia. replace (_ - _)%C with C0 by ring. apply Cnorm2_C0.
Qed.
Lemma sq_dist_eq0 : forall y h x, length y = length h -> sq_dist y h x = 0%R -> y = map (fun row => apply_row row x) h.
Proof.
  intros y h x Hy H. apply (nth_ext _ _ C0 C0); [rewrite map_length; exact Hy|]. intros i Hi. rewrite (nth_map_lt _ _ _ [] C0) by lia.
  assert (Z : Cnorm2 (nth i y C0 - apply_row (nth i h []) x)%C = 0%R).
  { unfold sq_dist in H. apply (Rsum_zero _) with (x := Cnorm2 (nth i y C0 - apply_row (nth i h []) x)%C) in H; [exact H| |].
    - intros v Hv. apply in_map_iff in Hv as (j & <- & _). apply Cnorm2_nonneg.
    - apply in_map_iff. exists i. split; [reflexivity|]. apply in_seq. lia. }
  apply Cnorm2_0 in Z. transitivity (apply_row (nth i h []) x + (nth i y C0 - apply_row (nth i h []) x))%C; [ring|]. rewrite Z. ring.
Qed.
Lemma ml_noiseless : forall h c n x x', vector_of c n x ->
  (forall a b, vector_of c n a -> vector_of c n b -> map (fun row => apply_row row a) h = map (fun row => apply_row row b) h -> a = b) ->
  ml_decision (map (fun row => apply_row row x) h) h c n x' -> x' = x.
Proof.
  intros h c n x x' Hx Inj (Hx' & HM). apply Inj; [exact Hx'|exact Hx|]. symmetry. apply sq_dist_eq0; [apply map_length|]. specialize (HM x Hx). rewrite sq_dist_0 in HM. pose proof (sq_dist_nonneg (map (fun row => apply_row row x) h) h x'). lra.
Qed.

(* ---------------------------------------------------------------- bit_lvl_repr *)
Lemma kron_entry : forall n w i k, (i < n)%nat -> (k < n * length w)%nat ->
  nth k (nth i (kron_eye n w) []) C0 = if (i =? k / length w)%nat then nth (k mod length w) w C0 else C0.
Proof.
  intros n w i k Hi Hk. unfold kron_eye. rewrite nth_map_seq by exact Hi. assert (Hw : (1 <= length w)%nat) by (destruct w; cbn in *; lia). rewrite flat_map_concat_map. rewrite (Nat.div_mod k (length w)) at 1 by lia. rewrite Nat.mul_comm.
  assert (Hq : (k / length w < n)%nat) by (apply Nat.div_lt_upper_bound; lia). assert (Hr : (k mod length w < length w)%nat) by (apply Nat.mod_upper_bound; lia).
  rewrite (concat_nth_uniform C0 (length w)); [|intros x Hx; apply in_map_iff in Hx as (j & <- & _); apply map_length|exact Hr]. rewrite nth_map_seq by exact Hq. rewrite (nth_map_lt _ _ _ C0 C0) by exact Hr. destruct (i =? k / length w)%nat; ring.
Qed.
(* sum over pairs (j, k) written as one sum over j * w + k *)
Lemma map_add_seq : forall b w a, map (fun k => (b + k)%nat) (seq a w) = seq (b + a) w.
Proof. intros b w. induction w as [|w IH]; intros a; [reflexivity|]. cbn [seq map]. f_equal. rewrite IH. f_equal. lia. Qed.
Lemma Csum_blocks : forall (f : nat -> C) n w, Csum (map f (seq 0 (n * w))) = Csum (map (fun j => Csum (map (fun k => f (j * w + k)%nat) (seq 0 w))) (seq 0 n)).
Proof.
  intros f n w. induction n as [|n IH]; [reflexivity|]. replace (S n * w)%nat with (n * w + w)%nat by lia. rewrite seq_app, map_app, Csum_app, IH, seq_S, map_app, Csum_app. f_equal. cbn [map Csum fold_right Nat.add].
  rewrite <- (map_map (fun k => n * w + k)%nat f), map_add_seq, Nat.add_0_r. unfold Csum. ring.
Qed.
Lemma kron_columns : forall n w, columns (n * length w) (kron_eye n w) /\ length (kron_eye n w) = n.
Proof.
  intros n w. split; [|unfold kron_eye; rewrite map_length; apply seq_length]. apply Forall_forall. intros x Hx. apply in_map_iff in Hx as (i & <- & _). rewrite flat_map_concat_map, (concat_length_uniform (length w)), map_length, seq_length; [lia|].
  intros y Hy. apply in_map_iff in Hy as (j & <- & _). apply map_length.
Qed.
Lemma bit_lvl_ok : forall H n w b, columns n H -> (length w mod 2 = 0)%nat -> length b = (n * length w)%nat ->
  exists A, bit_lvl_repr H n w = Ok A /\ length A = length H /\ columns (n * length w) A /\
    map (fun row => apply_row row b) A = map (fun row => apply_row row (map (fun j => Csum (map (fun k => (nth k w C0 * nth (j * length w + k) b C0)%C) (seq 0 (length w)))) (seq 0 n))) H.
Proof.
  intros H n w b HH Hw Hb. unfold bit_lvl_repr. rewrite Hw. cbn [Nat.eqb]. eexists. split; [reflexivity|]. split; [apply map_length|]. split; [apply Forall_forall; intros x Hx; apply in_map_iff in Hx as (r & <- & _); rewrite map_length; apply seq_length|].
  rewrite map_map. apply map_ext_in. intros row Hr. unfold columns in HH. rewrite Forall_forall in HH. specialize (HH row Hr). unfold apply_row at 1. rewrite Hb, Csum_blocks.
  unfold apply_row. rewrite map_length, seq_length. apply Csum_map_ext. intros j Hj. apply in_seq in Hj. rewrite (nth_map_seq _ n j) by lia. rewrite <- Csum_map_mul. apply Csum_map_ext. intros k Hk. apply in_seq in Hk.
  rewrite nth_map_seq by nia. destruct (kron_columns n w) as (KC & KL). rewrite dotC_apply by (unfold column; rewrite map_length, KL; exact HH). unfold apply_row. unfold column at 2. rewrite map_length, KL.
  assert (Ej : ((j * length w + k) / length w = j)%nat) by (rewrite Nat.div_add_l by lia; rewrite Nat.div_small by lia; lia). assert (Ek : ((j * length w + k) mod length w = k)%nat) by (rewrite Nat.add_comm, Nat.mod_add, Nat.mod_small by lia; reflexivity).
  rewrite (Csum_single _ n j).
  - unfold column. rewrite (nth_map_lt _ _ _ [] C0) by lia. rewrite kron_entry by (try nia; lia). rewrite Ej, Ek, Nat.eqb_refl. ring.
  - lia.
  - intros i Hi Hij. unfold column. rewrite (nth_map_lt _ _ _ [] C0) by lia. rewrite kron_entry by (try nia; lia). rewrite Ej. destruct (Nat.eqb_spec i j); [lia|]. ring.
Qed.

(* ---------------------------------------------------------------- max_log_approx *)
Lemma min_inf_spec : forall l, match min_inf l with None => l = [] | Some v => In v l /\ forall x, In x l -> (v <= x)%R end.
Proof.
  intros l. unfold min_inf. assert (G : forall l m, match fold_left (fun m x => match m with None => Some x | Some v => if Rlt_dec x v then Some x else Some v end) l m with
      | None => l = [] /\ m = None | Some v => (In v l \/ m = Some v) /\ (forall x, In x l -> (v <= x)%R) /\ (forall u, m = Some u -> (v <= u)%R) end).
  { clear l. induction l as [|x l IH]; intros m; cbn [fold_left].
    - destruct m as [u|]; [|auto]. split; [right; reflexivity|]. split; [intros x []|]. intros w E. injection E as ->. lra.
    - specialize (IH (match m with None => Some x | Some v => if Rlt_dec x v then Some x else Some v end)). destruct (fold_left _ l _) as [v|].
      + destruct IH as (I1 & I2 & I3). destruct m as [u|].
        * destruct (Rlt_dec x u) as [Hx|Hx].
          -- split; [destruct I1 as [I1|I1]; [left; right; exact I1|injection I1 as ->; left; left; reflexivity]|]. pose proof (I3 x eq_refl). split; [intros z [<-|Hz]; [assumption|apply I2, Hz]|]. intros w E. injection E as <-. lra.
          -- pose proof (I3 u eq_refl). split; [destruct I1 as [I1|I1]; [left; right; exact I1|right; exact I1]|]. split; [intros z [<-|Hz]; [lra|apply I2, Hz]|]. intros w E. injection E as <-. assumption.
        * pose proof (I3 x eq_refl). split; [destruct I1 as [I1|I1]; [left; right; exact I1|injection I1 as ->; left; left; reflexivity]|]. split; [intros z [<-|Hz]; [assumption|apply I2, Hz]|]. intros w E. discriminate.
      + destruct IH as (_ & I). destruct m; [destruct (Rlt_dec x r)|]; discriminate. }
  specialize (G l None). destruct (fold_left _ l None) as [v|]; [|apply G]. destruct G as ([G1|G1] & G2 & _); [split; assumption|discriminate].
Qed.
Lemma filter_combine : forall {A} (pts : list A) (f : nat -> bool) (g : A -> bool) a d, (forall i, (i < length pts)%nat -> f (a + i)%nat = g (nth i pts d)) ->
  map snd (filter (fun ip => f (fst ip)) (combine (seq a (length pts)) pts)) = filter g pts.
Proof.
  intros A pts f g. induction pts as [|x pts IH]; intros a d H; [reflexivity|]. cbn [length seq combine filter fst].
  assert (H0 := H 0%nat ltac:(cbn; lia)). cbn [nth] in H0. rewrite Nat.add_0_r in H0. rewrite <- H0.
  assert (E : map snd (filter (fun ip => f (fst ip)) (combine (seq (S a) (length pts)) pts)) = filter g pts). { apply (IH (S a) d). intros i Hi. specialize (H (S i) ltac:(cbn; lia)). cbn [nth] in H. rewrite <- H. f_equal. lia. }
  destruct (f a); cbn [map snd]; [rewrite E; reflexivity|exact E].
Qed.
Lemma flat_lab_length : forall (lab : C -> list Z) c b x, (forall s, In s c -> length (lab s) = b) -> Forall (fun s => In s c) x -> length (flat_map lab x) = (length x * b)%nat.
Proof. intros lab c b x HL H. induction H as [|s x Hs _ IH]; [reflexivity|]. cbn [flat_map length]. rewrite app_length, IH, (HL s Hs). lia. Qed.
Lemma smallest_filter : forall y h pts (g : list C -> bool), smallest y h pts (fun x => g x = true) (min_inf (map (sq_dist y h) (filter g pts))).
Proof.
  intros y h pts g. pose proof (min_inf_spec (map (sq_dist y h) (filter g pts))) as S. destruct (min_inf _) as [v|]; cbn [smallest].
  - destruct S as (S1 & S2). apply in_map_iff in S1 as (x & <- & Hx). apply filter_In in Hx as (X1 & X2). split; [exists x; auto|]. intros x' H1 H2. apply S2. apply in_map_iff. exists x'. split; [reflexivity|]. apply filter_In. auto.
  - intros x Hx Hg. assert (In (sq_dist y h x) []); [|assumption]. rewrite <- S. apply in_map_iff. exists x. split; [reflexivity|]. apply filter_In. auto.
Qed.
Lemma smallest_ext : forall y h pts P Q d, (forall x, In x pts -> P x <-> Q x) -> smallest y h pts P d -> smallest y h pts Q d.
Proof.
  intros y h pts P Q [v|] E; cbn [smallest].
  - intros ((x & X1 & X2 & X3) & H). split; [exists x; repeat split; auto; apply E; auto|]. intros x' H1 H2. apply H; [exact H1|]. apply E; auto.
  - intros H x Hx Hq. apply (H x Hx). apply E; auto.
Qed.
Lemma max_log_ok : forall y h v pts demode c n b lab, columns n h -> length y = length h -> demaps demode c b lab -> pts <> [] -> Forall (vector_of c n) pts ->
  exists l, max_log_approx y h v pts demode = Ok l /\ length l = (n * b)%nat /\
    forall k, (k < n * b)%nat -> exists d0 d1, smallest y h pts (fun x => nth k (flat_map lab x) 2 = 0) d0 /\ smallest y h pts (fun x => nth k (flat_map lab x) 2 = 1) d1 /\ (d0 <> None \/ d1 <> None) /\
      nth k l NaN = ext_div (ext_opp (ext_sub d0 d1)) (2 * v).
Proof.
  intros y h v pts demode c n b lab HH Hy (HL & HD) Hne HV. rewrite Forall_forall in HV. assert (HL' : forall s, In s c -> length (lab s) = b) by (intros s Hs; apply HL, Hs).
  assert (FC : Forall (fun s => In s c) (concat pts)). { apply Forall_forall. intros s Hs. apply in_concat in Hs as (x & Hx & Hs). destruct (HV x Hx) as (_ & F). rewrite Forall_forall in F. apply F, Hs. }
  assert (PL : forall x, In x pts -> length (flat_map lab x) = (n * b)%nat). { intros x Hx. destruct (HV x Hx) as (L & F). rewrite (flat_lab_length lab c b x HL' F), L. reflexivity. }
  assert (WL : length (flat_map lab (concat pts)) = (length pts * (n * b))%nat).
  { rewrite (flat_lab_length lab c b _ HL' FC). rewrite (concat_length_uniform n) by (intros x Hx; apply (HV x Hx)). lia. }
  assert (WN : forall i k, (i < length pts)%nat -> (k < n * b)%nat -> nth (i * (n * b) + k) (flat_map lab (concat pts)) 2 = nth k (flat_map lab (nth i pts [])) 2).
  { intros i k Hi Hk. rewrite !flat_map_concat_map.
    replace (concat (map lab (concat pts))) with (concat (map (fun x => concat (map lab x)) pts)); [|clear; induction pts as [|x pts IH]; [reflexivity|]; cbn [map concat]; rewrite map_app, concat_app, IH; reflexivity].
    rewrite (concat_nth_uniform 2 (n * b)); [|intros x Hx; apply in_map_iff in Hx as (x' & <- & Hx'); rewrite <- flat_map_concat_map; apply PL, Hx'|exact Hk].
    rewrite (nth_map_lt _ _ _ [] []) by exact Hi. reflexivity. }
  unfold max_log_approx. rewrite HD by exact FC. cbn [bind]. rewrite WL. assert (HP : (length pts <> 0)%nat) by (destruct pts; [congruence|cbn; lia]). rewrite (Nat.mul_comm (length pts)), Nat.mod_mul, Nat.div_mul by exact HP. apply Nat.eqb_neq in HP as HP'. rewrite HP'. cbn [Nat.eqb negb orb].
  set (D t k := min_inf (map (sq_dist y h) (filter (fun x => nth k (flat_map lab x) 2 =? t) pts))).
  assert (SEL : forall t k, (k < n * b)%nat -> mapM (dist2 y h) (map snd (filter (fun ip => nth (fst ip * (n * b) + k) (flat_map lab (concat pts)) 2 =? t) (combine (seq 0 (length pts)) pts))) = Ok (map (sq_dist y h) (filter (fun x => nth k (flat_map lab x) 2 =? t) pts))).
  { intros t k Hk. rewrite (filter_combine pts (fun i => nth (i * (n * b) + k) (flat_map lab (concat pts)) 2 =? t) (fun x => nth k (flat_map lab x) 2 =? t) 0 []) by (intros i Hi; cbn [Nat.add]; rewrite WN by assumption; reflexivity).
    apply mapM_Ok. intros x Hx. apply filter_In in Hx as (Hx & _). apply (dist2_ok y h n); [exact HH|exact Hy|apply (HV x Hx)]. }
  rewrite (mapM_Ok _ (fun k => ext_div (ext_opp (ext_sub (D 0 k) (D 1 k))) (2 * v))) by (intros k Hk; apply in_seq in Hk; rewrite !SEL by lia; reflexivity).
  eexists. split; [reflexivity|]. split; [rewrite map_length; apply seq_length|]. intros k Hk. exists (D 0 k), (D 1 k). 
  assert (S0 := smallest_filter y h pts (fun x => nth k (flat_map lab x) 2 =? 0)). assert (S1 := smallest_filter y h pts (fun x => nth k (flat_map lab x) 2 =? 1)). fold (D 0 k) in S0. fold (D 1 k) in S1.
  assert (S0' : smallest y h pts (fun x => nth k (flat_map lab x) 2 = 0) (D 0 k)) by (eapply smallest_ext; [|exact S0]; intros x _; apply Z.eqb_eq).
  assert (S1' : smallest y h pts (fun x => nth k (flat_map lab x) 2 = 1) (D 1 k)) by (eapply smallest_ext; [|exact S1]; intros x _; apply Z.eqb_eq).
  split; [exact S0'|]. split; [exact S1'|]. split; [|rewrite nth_map_seq by exact Hk; reflexivity].
  destruct pts as [|x pts']; [congruence|]. assert (Hx : In x (x :: pts')) by (left; reflexivity). assert (B : nth k (flat_map lab x) 2 = 0 \/ nth k (flat_map lab x) 2 = 1).
  { assert (I : In (nth k (flat_map lab x) 2) (flat_map lab x)) by (apply nth_In; rewrite PL by exact Hx; exact Hk). apply in_flat_map in I as (s & Hs & I). destruct (HV x Hx) as (_ & F). rewrite Forall_forall in F. destruct (HL s (F s Hs)) as (_ & G). rewrite Forall_forall in G. apply G, I. }
  destruct B as [B|B]; [left|right]; intros E.
  - rewrite E in S0'. exact (S0' x Hx B).
  - rewrite E in S1'. exact (S1' x Hx B).
Qed.
