(* best_first_detector: the whole run. *)
From Coq Require Import Permutation Sorted.
From Verif Require Import Base UtilModel UtilProofs Cplx ModemModel ModemProofs MimoModel MimoSpec MimoProofs KbestProofs BestFirst BestFirstPos BestFirstGap.
Open Scope Z_scope.

Lemma cost_le : forall c j, (2 <= length c)%nat -> (cost c j + 1 <= length c ^ j)%nat.
Proof. intros c j Hm. induction j as [|j IH]; [cbn; lia|]. cbn [cost]. rewrite Nat.pow_succ_r'. nia. Qed.
Lemma total_start : forall c k i s, (forall j, (j < k)%nat -> True) -> total c i (repeat [] k ++ [s]) = weight c (i + k) s.
Proof. intros c k. induction k as [|k IH]; intros i s _; cbn [repeat app total]; [rewrite !Nat.add_0_r; reflexivity|]. rewrite IH by auto. replace (S i + k)%nat with (i + S k)%nat by lia. reflexivity. Qed.

(* the triangular metric in the two forms *)
Lemma pm_pmetric : forall yt r n x, length yt = n -> length r = n -> columns n r -> length x = n -> forall i, (i <= n)%nat -> pm yt r (skipn i x) = pmetric yt r x i.
Proof.
  intros yt r n x Hy Hr Hcol Hx. assert (G : forall d, (d <= n)%nat -> pm yt r (skipn (n - d) x) = pmetric yt r x (n - d)).
  { induction d as [|d IH]; intros Hd.
    - rewrite Nat.sub_0_r, skipn_all2 by lia. unfold pmetric. rewrite Hx, Nat.sub_diag. reflexivity.
    - specialize (IH ltac:(lia)). set (i := (n - S d)%nat) in *. assert (Hi : (i < n)%nat) by (unfold i; lia). replace (n - d)%nat with (S i) in IH by (unfold i; lia). rewrite pmetric_S by lia. rewrite <- IH.
      assert (E : skipn i x = nth i x C0 :: skipn (S i) x). { clear - Hx Hi. clearbody i. subst n. revert i Hi. induction x as [|a x IH]; intros [|i] Hi; cbn [length] in Hi; try lia; [reflexivity|]. cbn [skipn nth]. apply IH. lia. }
      rewrite E. cbn [pm]. f_equal. rewrite <- E. unfold errt. rewrite skipn_length, Hx, Hy, Hr. replace (n - (n - i))%nat with i by lia. rewrite (columns_nth n r i Hcol) by lia. replace (n - (n - i))%nat with i by lia.
      do 2 f_equal. rewrite dotC_apply by (rewrite !skipn_length, (columns_nth n r i Hcol) by lia; lia). unfold apply_row, tailsum. rewrite skipn_length. rewrite <- (map_add_seq i (length x - i) 0) at 1 || idtac.
      transitivity (Csum (map (fun l => (rx r i (i + l) * nth (i + l) x C0)%C) (seq 0 (length x - i)))).
      + apply Csum_map_ext. intros l Hl. apply in_seq in Hl. unfold rx. rewrite <- !nth_skipn_plus || idtac. f_equal; symmetry; clear; [generalize (nth i r []) as w|generalize x as w]; induction i as [|i IH]; intros [|a w]; cbn [skipn nth Nat.add]; try (destruct l; reflexivity); try reflexivity; apply IH.
      + rewrite <- (map_map (fun l => (i + l)%nat) (fun l => (rx r i l * nth l x C0)%C)), map_add_seq, Nat.add_0_r. reflexivity. }
  intros i Hi. specialize (G (n - i)%nat ltac:(lia)). replace (n - (n - i))%nat with i in G by lia. exact G.
Qed.

Lemma bfd_unfold : forall argsort fuel y h q r n c stack_size demode L, c <> [] -> length y = length h ->
  forall first, expand argsort (matvec (conj_transpose (Nat.min (length h) n) q) y) r c [] 0%R = Ok first ->
  best_first_detector argsort fuel y h q r n c stack_size demode L =
    match bf_loop argsort (matvec (conj_transpose (Nat.min (length h) n) q) y) r c demode (Nat.log2 (length c)) stack_size L fuel
       {| map_metric := None; map_bits := None; counter := repeat (repeat None (Nat.log2 (length c))) (length h); stacks := repeat [] (length h - 1) ++ [[first]] |} with
    | None => None | Some (Err e) => Some (Err e)
    | Some (Ok st) => match map_metric st, map_bits st with
              | Some v, Some mb => Some (Ok (map (fun xb => (v - match fst xb with Some x => x | None => 0 end) * IZR (snd xb))%R (combine (concat (counter st)) (concat mb))))
              | _, _ => Some (Err TypeError) end end.
Proof. intros argsort fuel y h q r n c stack_size demode L Hc Hy first E. unfold best_first_detector. destruct c as [|s0 c0] eqn:Ec; [congruence|]. rewrite Hy, Nat.eqb_refl. cbn [negb]. rewrite E. reflexivity. Qed.

Section RUN.
  Variables (argsort : list R -> list nat) (y : list C) (h q r : list (list C)) (n : nat) (c : list C) (stack_size : list nat) (demode : list C -> res (list Z)) (lab : C -> list Z) (L : R).
  Let N := length h.
  Let order := Nat.log2 (length c).
  Hypothesis (HS : sorting argsort) (Hy : length y = length h) (Hm : (2 <= length c)%nat) (HD : demaps demode c order lab) (HL : (0 <= L)%R) (Hsz : (length h - 1 <= length stack_size)%nat) (HN : (1 <= length h)%nat) (Hn : (1 <= n)%nat).
  Notation yt := (matvec (conj_transpose (Nat.min (length h) n) q) y).
  Lemma Ho : (1 <= order)%nat. Proof. unfold order. change 1%nat with (Nat.log2 2). apply Nat.log2_le_mono, Hm. Qed.
  Lemma Hc : c <> []. Proof. intros E. rewrite E in Hm. cbn in Hm. lia. Qed.
  Lemma yt_len : length yt = Nat.min (length h) n. Proof. apply q_yt_length. Qed.
  Definition start (first : node) : bf_state := {| map_metric := None; map_bits := None; counter := repeat (repeat None order) (length h); stacks := repeat [] (length h - 1) ++ [[first]] |}.
  Lemma run_unfold : forall fuel first, expand argsort yt r c [] 0%R = Ok first -> best_first_detector argsort fuel y h q r n c stack_size demode L =
    match bf_loop argsort yt r c demode order stack_size L fuel (start first) with
    | None => None | Some (Err e) => Some (Err e)
    | Some (Ok st) => match map_metric st, map_bits st with
              | Some v, Some mb => Some (Ok (map (fun xb => (v - match fst xb with Some x => x | None => 0 end) * IZR (snd xb))%R (combine (concat (counter st)) (concat mb))))
              | _, _ => Some (Err TypeError) end end.
  Proof. intros fuel first E. rewrite (bfd_unfold argsort fuel y h q r n c stack_size demode L Hc Hy first E). reflexivity. Qed.
  Lemma start_nth : forall first i, nth i (repeat [] (length h - 1) ++ [[first]]) [] = if (i =? length h - 1)%nat then [first] else ([] : list node).
  Proof.
    intros first i. destruct (Nat.eqb_spec i (length h - 1)) as [->|Hi].
    - rewrite app_nth2 by (rewrite repeat_length; lia). rewrite repeat_length, Nat.sub_diag. reflexivity.
    - destruct (Nat.lt_ge_cases i (length h - 1)); [rewrite app_nth1 by (rewrite repeat_length; lia); apply nth_repeat|]. rewrite nth_overflow; [reflexivity|]. rewrite app_length, repeat_length. cbn [length]. lia.
  Qed.
  Lemma start_ok : exists first, expand argsort yt r c [] 0%R = Ok first /\ inv yt r c order lab L N (start first) /\ meas c (start first) = (length c * cost c (length h - 1))%nat /\ (forall s, In s c -> In ([s], pm yt r [s]) first).
  Proof.
    destruct (expand_ok argsort yt r c demode HS [] (Forall_nil _) Hc ltac:(rewrite yt_len; cbn; lia)) as (first & E & Ch & Len & All). exists first. split; [exact E|]. split; [|split; [|exact All]].
    - split; [exists None; split; reflexivity|]. split; [cbn [start stacks]; rewrite app_length, repeat_length; cbn [length]; unfold N; lia|]. intros i Hi. unfold stk. cbn [start stacks]. rewrite start_nth. destruct (Nat.eqb_spec i (length h - 1)) as [->|_]; [|split; constructor]. split; [repeat constructor|]. constructor; [|constructor]. unfold N. replace (length h - (length h - 1))%nat with 1%nat by lia. exact Ch.
    - unfold meas. cbn [start stacks]. rewrite total_start by auto. unfold weight. cbn [map fold_right Nat.add]. rewrite Len. lia.
  Qed.

  Lemma combine_repeat : forall {A B} (k : A) (l : list B) j, (length l <= j)%nat -> combine (repeat k j) l = map (fun b => (k, b)) l.
  Proof. intros A B k l. induction l as [|b l IH]; intros [|j] H; cbn [length] in H; try lia; [reflexivity|reflexivity|]. cbn [repeat combine map]. rewrite IH by lia. reflexivity. Qed.
  Lemma concat_repeat_repeat : forall (k : option R) a b, concat (repeat (repeat k a) b) = repeat k (b * a).
  Proof. intros k a b. induction b as [|b IH]; [reflexivity|]. cbn [repeat concat Nat.mul]. rewrite IH, <- repeat_app. reflexivity. Qed.

  (* a run that reaches a leaf *)
  Lemma run_llr : (2 <= length h <= n)%nat -> Forall (fun s => (1 <= s)%nat) stack_size ->
    exists x del, vector_of c (length h) x /\ (0 <= del <= L)%R /\
      (forall fuel, (length c ^ length h <= fuel)%nat -> best_first_detector argsort fuel y h q r n c stack_size demode L = Some (Ok (map (fun b => if b =? 0 then del else (- del)%R) (flat_map lab x)))) /\
      (Forall (fun s => (length c ^ length h <= s)%nat) stack_size -> forall x', vector_of c (length h) x' -> (pm yt r x <= pm yt r x')%R) /\
      ((0 < L)%R -> NoDup c -> (forall x', vector_of c (length h) x' -> x' <> x -> (pm yt r x < pm yt r x')%R) -> (0 < del)%R) /\
      (forall z, vector_of c (length h) z -> (forall i v, (i <= length h)%nat -> vector_of c (length h - i) v -> (pm yt r v <= pm yt r (skipn i z))%R -> v = skipn i z) -> x = z).
  Proof.
    intros HNn Hs1. destruct start_ok as (first & E & HI & HM & All). assert (Bound : (meas c (start first) <= length c ^ length h)%nat). { rewrite HM. pose proof (cost_le c (length h - 1) Hm). replace (length h) with (S (length h - 1)) at 2 by lia. rewrite Nat.pow_succ_r'. nia. }
    destruct (loop_ok argsort yt r c demode order lab stack_size L N HS HD Ho Hc HL Hsz HN (length c ^ length h) (start first) HI Bound) as (st' & EL & ((kap & B1 & B2) & SI) & NB & P1 & V1 & _ & Z0).
    assert (Hyt : (N <= length yt)%nat) by (rewrite yt_len; unfold N; lia).
    assert (BS : bf_busy (start first) = true). { apply (busy_spec c order stack_size N Ho Hsz HN). exists (length h - 1)%nat. unfold stk. cbn [start stacks]. rewrite start_nth, Nat.eqb_refl, app_length, repeat_length. cbn [length]. split; [lia|discriminate]. }
    specialize (P1 Hyt Hs1 (fun _ => BS)). destruct (map_metric st') as [v|] eqn:Em; [|congruence]. destruct (map_bits st') as [mb|] eqn:Eb; [|destruct B2]. destruct B2 as (x & k & Vx & -> & -> & -> & Hk).
    exists x, (k - pm yt r x)%R. split; [exact Vx|]. split; [lra|].
    assert (HELD : forall x', vector_of c (length h) x' -> held N (stacks (start first)) x').
    { intros x' Hx'. destruct Hx' as (X1 & X2). destruct (exists_last (l := x')) as (p & s & ->); [intros F; rewrite F in X1; cbn in X1; lia|]. exists (length h - 1)%nat, first, ([s], pm yt r [s]), p. split; [unfold N; lia|]. split; [cbn [start stacks]; rewrite start_nth, Nat.eqb_refl; left; reflexivity|]. split; [|reflexivity]. apply All. rewrite Forall_forall in X2. apply X2. apply in_or_app. right. left. reflexivity. }
    assert (DONE : forall x', held N (stacks st') x' -> False).
    { intros x' (i & nd & e & p & P & Pn & _). destruct i as [|i].
        * assert (Z : stk st' 0 = []) by (apply Z0; unfold stk; cbn [start stacks]; rewrite start_nth; destruct (Nat.eqb_spec 0 (length h - 1)); [lia|reflexivity]). unfold stk in Z. rewrite Z in Pn. exact Pn.
        * assert (BT : bf_busy st' = true) by (apply (busy_spec c order stack_size N Ho Hsz HN); exists (S i); destruct SI as (SL & _); rewrite SL; split; [lia|]; unfold stk; destruct (nth (S i) (stacks st') []); [destruct Pn|discriminate]). congruence. }
    split; [|split; [|split]].
    - intros fuel Hf. rewrite (run_unfold fuel first E), (EL fuel Hf), Em, Eb. do 2 f_equal. rewrite B1, concat_repeat_repeat. destruct Vx as (Vx1 & Vx2). destruct HD as (D1 & D2).
      assert (LX : length (concat (rows lab x)) = (length x * order)%nat). { unfold rows. rewrite (concat_length_uniform order), map_length; [lia|]. intros z Hz. apply in_map_iff in Hz as (s & <- & Hs). rewrite map_length. apply D1. rewrite Forall_forall in Vx2. apply Vx2, Hs. }
      rewrite combine_repeat by (rewrite LX, Vx1; unfold N; lia). rewrite map_map. cbn [fst snd]. replace (concat (rows lab x)) with (map pmone (flat_map lab x)) by (unfold rows; rewrite flat_map_concat_map, concat_map, map_map; reflexivity). rewrite map_map. apply map_ext_in. intros b Hb.
      apply in_flat_map in Hb as (s & Hs & Hb). rewrite Forall_forall in Vx2. destruct (D1 s (Vx2 s Hs)) as (_ & F). rewrite Forall_forall in F. destruct (F b Hb) as [->| ->]; cbn; ring.
    - intros Hbig x' Hx'. destruct (V1 Hyt Hbig x' Hx') as [Hh|(v & Ev & Hv)]; [left; apply HELD, Hx'|destruct (DONE x' Hh)|]. injection Ev as <-. exact Hv.
    - intros HL0 HU Ux. destruct (loop_good argsort yt r c demode order lab stack_size L N HS HD Ho Hc HL Hsz HN HU HL0 x (proj1 Vx) Ux (length c ^ length h) (start first) st' HI) as (_ & G).
      + split; [|discriminate]. cbn [start stacks]. assert (T : forall j, tot x (repeat [] j ++ [[first]]) = nmult x first) by (induction j as [|j IH]; [unfold tot, mult; cbn; lia|exact IH]). rewrite T. pose proof (expand_mult argsort yt r c order stack_size N HS Ho Hsz HN HU x [] 0%R first E) as EM. unfold cov in EM at 1. destruct (list_eq_dec _ _ _) in EM; lia.
      + apply EL. lia.
      + destruct (G Em) as (_ & k' & Ek & Hk'). rewrite B1 in Ek. assert (k = k'); [|subst; lra]. unfold N in Ek. destruct (length h) as [|n']; [lia|]. cbn [repeat] in Ek. pose proof Ho as HO. destruct order as [|o]; [lia|]. cbn [repeat] in Ek. congruence.
    - intros z Hz Bz. destruct (loop_alive argsort yt r c demode order lab stack_size L N HS HD Ho Hc HL Hsz HN Hyt Hs1 z Hz Bz (length c ^ length h) (start first) st' HI) as [Hh|(v & Ev & Hv)]; [left; apply HELD, Hz|apply EL; lia|destruct (DONE z Hh)|].
      rewrite Em in Ev. injection Ev as <-. specialize (Bz 0%nat x ltac:(lia)). rewrite Nat.sub_0_r in Bz. cbn [skipn] in Bz. apply Bz; assumption.
  Qed.
  (* tall matrices: no leaf is ever reached *)
  Lemma run_tall : (n < length h)%nat \/ length h = 1%nat -> forall fuel, (length c ^ length h <= fuel)%nat -> best_first_detector argsort fuel y h q r n c stack_size demode L = Some (Err TypeError).
  Proof.
    intros Hcase. destruct start_ok as (first & E & HI & HM & All). assert (Bound : (meas c (start first) <= length c ^ length h)%nat). { rewrite HM. pose proof (cost_le c (length h - 1) Hm). replace (length h) with (S (length h - 1)) at 2 by lia. rewrite Nat.pow_succ_r'. nia. } destruct Hcase as [Ht|H1].
    - destruct (loop_ok argsort yt r c demode order lab stack_size L N HS HD Ho Hc HL Hsz HN (length c ^ length h) (start first) HI Bound) as (st' & EL & _ & _ & _ & _ & Q & _).
      intros fuel Hf. rewrite (run_unfold fuel first E), (EL fuel Hf). rewrite Q; [reflexivity|rewrite yt_len; unfold N; lia| |reflexivity]. intros i Hi. rewrite yt_len in Hi. unfold stk. cbn [start stacks]. rewrite start_nth. destruct (Nat.eqb_spec i (length h - 1)); [unfold N in Hi; lia|reflexivity].
    - intros fuel _. rewrite (run_unfold fuel first E). assert (NB : bf_busy (start first) = false). { unfold bf_busy. cbn [start stacks]. rewrite H1. reflexivity. } destruct fuel; cbn [bf_loop]; rewrite NB; reflexivity.
  Qed.
  Lemma run_ml : (2 <= n)%nat -> is_qr h n q r -> length h = n -> Forall (fun s => (length c ^ n <= s)%nat) stack_size ->
    exists x del, ml_decision y h c n x /\ (0 <= del <= L)%R /\
      (forall fuel, (length c ^ n <= fuel)%nat -> best_first_detector argsort fuel y h q r n c stack_size demode L = Some (Ok (map (fun b => if b =? 0 then del else (- del)%R) (flat_map lab x)))) /\
      ((0 < L)%R -> NoDup c -> (forall x', ml_decision y h c n x' -> x' = x) -> (0 < del)%R).
  Proof.
    intros H2 HQ Hh Hs. assert (Hs1 : Forall (fun s => (1 <= s)%nat) stack_size). { eapply Forall_impl; [|exact Hs]. intros s H. cbv beta in H. pose proof (Nat.pow_nonzero (length c) n ltac:(lia)). lia. }
    destruct (run_llr ltac:(lia) Hs1) as (x & del & Vx & Hdel & Run & Opt & Pos & _). rewrite Hh in Vx, Run, Opt, Pos. exists x, del. rewrite Nat.min_id in Opt, Pos. fold (q_yt y n q) in Opt, Pos.
    destruct (qr_dist y h n q r HQ Hy) as (c0 & Q0). destruct HQ as (_ & _ & _ & R1 & R2 & _ & _ & HT). assert (PE : forall z, length z = n -> pm (q_yt y n q) r z = sq_dist (q_yt y n q) r z).
    { intros z Hz. rewrite <- (pmetric_0 _ r z n Hz R1 HT). rewrite <- (pm_pmetric _ r n z (q_yt_length _ _ _) R1 R2 Hz 0 ltac:(lia)). reflexivity. }
    assert (ML : ml_decision y h c n x). { split; [exact Vx|]. intros x' Hx'. specialize (Opt Hs x' Hx'). rewrite (Q0 x) by apply Vx. rewrite (Q0 x') by apply Hx'. rewrite !PE in Opt by (apply Vx || apply Hx'). lra. }
    split; [exact ML|]. split; [exact Hdel|]. split; [exact Run|]. intros HL0 HU Uniq. apply (Pos HL0 HU). intros x' Hx' Hne. rewrite !PE by (apply Vx || apply Hx'). destruct (Rlt_le_dec (sq_dist (q_yt y n q) r x) (sq_dist (q_yt y n q) r x')) as [|Hle]; [assumption|]. exfalso. apply Hne, Uniq. split; [exact Hx'|]. intros z Hz. destruct ML as (_ & ML). specialize (ML z Hz). rewrite (Q0 x) in ML by apply Vx. rewrite (Q0 x') by apply Hx'. lra.
  Qed.
  (* with stacks that never overflow *)
  Lemma run_gap : (2 <= n)%nat -> is_qr h n q r -> length h = n -> NoDup c -> Forall (fun s => (length c ^ n <= s)%nat) stack_size ->
    exists x del, ml_decision y h c n x /\ (0 <= del <= L)%R /\
      (forall fuel, (length c ^ n <= fuel)%nat -> best_first_detector argsort fuel y h q r n c stack_size demode L = Some (Ok (map (fun b => if b =? 0 then del else (- del)%R) (flat_map lab x)))) /\
      (forall x', vector_of c n x' -> tl x' <> tl x -> (del <= sq_dist y h x' - sq_dist y h x)%R) /\
      (del = L \/ exists x', vector_of c n x' /\ tl x' <> tl x /\ del = (sq_dist y h x' - sq_dist y h x)%R).
  Proof.
    intros H2 HQ Hh HU Hs. assert (Hs1 : Forall (fun s => (1 <= s)%nat) stack_size). { eapply Forall_impl; [|exact Hs]. intros s H. cbv beta in H. pose proof (Nat.pow_nonzero (length c) n ltac:(lia)). lia. }
    destruct start_ok as (first & E & HI & HM & All). assert (Bound : (meas c (start first) <= length c ^ length h)%nat). { rewrite HM. pose proof (cost_le c (length h - 1) Hm). replace (length h) with (S (length h - 1)) at 2 by lia. rewrite Nat.pow_succ_r'. nia. }
    destruct (loop_ok argsort yt r c demode order lab stack_size L N HS HD Ho Hc HL Hsz HN (length c ^ length h) (start first) HI Bound) as (st' & EL & (_ & SI) & NB & P1 & _ & _ & Z0).
    assert (Hyt : (N <= length yt)%nat) by (rewrite yt_len; unfold N; lia).
    assert (BS : bf_busy (start first) = true). { apply (busy_spec c order stack_size N Ho Hsz HN). exists (length h - 1)%nat. unfold stk. cbn [start stacks]. rewrite start_nth, Nat.eqb_refl, app_length, repeat_length. cbn [length]. split; [lia|discriminate]. }
    specialize (P1 Hyt Hs1 (fun _ => BS)).
    assert (HELD : forall x', vector_of c (length h) x' -> held N (stacks (start first)) x').
    { intros x' Hx'. destruct Hx' as (X1 & X2). destruct (exists_last (l := x')) as (p & s & ->); [intros F; rewrite F in X1; cbn in X1; lia|]. exists (length h - 1)%nat, first, ([s], pm yt r [s]), p. split; [unfold N; lia|]. split; [cbn [start stacks]; rewrite start_nth, Nat.eqb_refl; left; reflexivity|]. split; [|reflexivity]. apply All. rewrite Forall_forall in X2. apply X2. apply in_or_app. right. left. reflexivity. }
    assert (Z1 : stk (start first) 0 = []) by (unfold stk; cbn [start stacks]; rewrite start_nth; destruct (Nat.eqb_spec 0 (length h - 1)); [lia|reflexivity]).
    assert (DONE : forall x', held N (stacks st') x' -> False).
    { intros x' (i & nd & e & p & P & Pn & _). destruct i as [|i].
        * specialize (Z0 Z1). unfold stk in Z0. rewrite Z0 in Pn. exact Pn.
        * assert (BT : bf_busy st' = true) by (apply (busy_spec c order stack_size N Ho Hsz HN); exists (S i); destruct SI as (SL & _); rewrite SL; split; [lia|]; unfold stk; destruct (nth (S i) (stacks st') []); [destruct Pn|discriminate]). congruence. }
    assert (G0 : gap yt r c order lab L N (start first)).
    { split; [|exact HELD]. intros u Hu. cbn [start stacks]. assert (T : forall j, tot u (repeat [] j ++ [[first]]) = nmult u first) by (induction j as [|j IH]; [unfold tot, mult; cbn; lia|exact IH]). rewrite T. pose proof (expand_mult argsort yt r c order stack_size N HS Ho Hsz HN HU u [] 0%R first E) as EM. unfold cov in EM at 1. destruct (list_eq_dec _ _ _) in EM; lia. }
    assert (Hs' : Forall (fun s => (length c ^ length h <= s)%nat) stack_size) by (rewrite Hh; exact Hs).
    assert (HN2 : (2 <= N)%nat) by (unfold N; lia).
    destruct (loop_gap argsort yt r c demode order lab stack_size L N HS HD Ho Hc HL Hsz HN HU HN2 Hyt (length c ^ length h) (length c ^ length h) (start first) st' HI Z1 G0 Bound Hs' (EL _ (Nat.le_refl _))) as (_ & G).
    destruct (map_metric st') as [v|] eqn:Em; [|congruence]. destruct G as (x & k & Vx & -> & Eb & B1 & Hk & ALL & EX & _). exists x, (k - pm yt r x)%R.
    assert (Run : forall fuel, (length c ^ n <= fuel)%nat -> best_first_detector argsort fuel y h q r n c stack_size demode L = Some (Ok (map (fun b => if b =? 0 then (k - pm yt r x)%R else (- (k - pm yt r x))%R) (flat_map lab x)))).
    { intros fuel Hf. rewrite (run_unfold fuel first E), (EL fuel ltac:(rewrite Hh; exact Hf)), Em, Eb. do 2 f_equal. rewrite B1, concat_repeat_repeat. destruct Vx as (Vx1 & Vx2). destruct HD as (D1 & D2).
      assert (LX : length (concat (rows lab x)) = (length x * order)%nat). { unfold rows. rewrite (concat_length_uniform order), map_length; [lia|]. intros z Hz. apply in_map_iff in Hz as (s & <- & Hs0). rewrite map_length. apply D1. rewrite Forall_forall in Vx2. apply Vx2, Hs0. }
      rewrite combine_repeat by (rewrite LX, Vx1; unfold N; lia). rewrite map_map. cbn [fst snd]. replace (concat (rows lab x)) with (map pmone (flat_map lab x)) by (unfold rows; rewrite flat_map_concat_map, concat_map, map_map; reflexivity). rewrite map_map. apply map_ext_in. intros b Hb.
      apply in_flat_map in Hb as (s & Hs0 & Hb). rewrite Forall_forall in Vx2. destruct (D1 s (Vx2 s Hs0)) as (_ & F). rewrite Forall_forall in F. destruct (F b Hb) as [->| ->]; cbn; ring. }
    assert (ALL' : forall z, vector_of c n z -> (tl z = tl x /\ (pm yt r x <= pm yt r z)%R) \/ (k <= pm yt r z)%R). { intros z Hz. destruct (ALL z ltac:(unfold N; rewrite Hh; exact Hz)) as [Hh'|O]; [destruct (DONE z Hh')|exact O]. }
    unfold N in Vx, EX. rewrite Hh in Vx, EX. clear ALL. revert Hk Run ALL' EX. rewrite Hh, Nat.min_id. fold (q_yt y n q). intros Hk Run ALL EX.
    destruct (qr_dist y h n q r HQ Hy) as (c0 & Q0). destruct HQ as (_ & _ & _ & R1 & R2 & _ & _ & HT). assert (PE : forall z, length z = n -> pm (q_yt y n q) r z = (sq_dist y h z - c0)%R).
    { intros z Hz. rewrite (Q0 z Hz). rewrite <- (pmetric_0 _ r z n Hz R1 HT). rewrite <- (pm_pmetric _ r n z (q_yt_length _ _ _) R1 R2 Hz 0 ltac:(lia)). cbn [skipn]. ring. }
    pose proof (PE x (proj1 Vx)) as Px. split; [|split; [lra|split; [exact Run|split]]].
    - split; [exact Vx|]. intros z Hz. pose proof (PE z (proj1 Hz)) as Pz. destruct (ALL z Hz) as [(_ & H)|H]; lra.
    - intros z Hz Hne. pose proof (PE z (proj1 Hz)) as Pz. destruct (ALL z Hz) as [(H & _)|H]; [congruence|]. lra.
    - destruct EX as [->|(z & Hz & Hne & ->)]; [left; ring|]. right. exists z. pose proof (PE z (proj1 Hz)) as Pz. split; [exact Hz|]. split; [exact Hne|]. lra.
  Qed.
End RUN.

(* an argsort on reals *)
Fixpoint rinsert (k : R * nat) (l : list (R * nat)) : list (R * nat) :=
  match l with [] => [k] | x :: l' => if Rle_dec (fst k) (fst x) then k :: l else x :: rinsert k l' end.
Definition rsort (l : list R) : list nat := map snd (fold_right rinsert [] (combine l (seq 0 (length l)))).
Lemma rinsert_perm : forall k l, Permutation (rinsert k l) (k :: l).
Proof. intros k l. induction l as [|x l IH]; cbn [rinsert]; [reflexivity|]. destruct (Rle_dec _ _); [reflexivity|]. rewrite IH. apply perm_swap. Qed.
Lemma rinsert_sorted : forall k l, StronglySorted (fun a b => (fst a <= fst b)%R) l -> StronglySorted (fun a b => (fst a <= fst b)%R) (rinsert k l).
Proof.
  intros k l H. induction H as [|x l H1 IH H2]; cbn [rinsert]; [repeat constructor|]. destruct (Rle_dec (fst k) (fst x)) as [Hl|Hl].
  - constructor; [constructor; assumption|]. constructor; [exact Hl|]. rewrite Forall_forall in *. intros z Hz. specialize (H2 z Hz). lra.
  - constructor; [exact IH|]. apply Forall_forall. intros z Hz. apply (Permutation_in _ (rinsert_perm k l)) in Hz as [<-|Hz]; [lra|]. rewrite Forall_forall in H2. apply H2, Hz.
Qed.
Lemma rsort_sorting : sorting rsort.
Proof.
  intros l. unfold rsort. set (ps := combine l (seq 0 (length l))). assert (P : Permutation (fold_right rinsert [] ps) ps) by (induction ps as [|a ps IH]; cbn [fold_right]; [reflexivity|]; rewrite rinsert_perm, IH; reflexivity).
  assert (S : StronglySorted (fun a b => (fst a <= fst b)%R) (fold_right rinsert [] ps)) by (clear P; induction ps as [|a ps IH]; cbn [fold_right]; [constructor|apply rinsert_sorted, IH]).
  assert (G : forall p, In p (fold_right rinsert [] ps) -> nth (snd p) l 0%R = fst p). { intros p Hp. apply (Permutation_in _ P) in Hp. unfold ps in Hp. rewrite (combine_seq l _ 0%R 0%nat) in Hp by (rewrite seq_length; reflexivity). apply in_map_iff in Hp as (i & <- & Hi). apply in_seq in Hi. cbn [fst snd]. rewrite seq_nth by lia. reflexivity. }
  split.
  - etransitivity; [apply Permutation_map, P|]. unfold ps. rewrite (combine_seq l _ 0%R 0%nat) by (rewrite seq_length; reflexivity). rewrite map_map. cbn [snd]. rewrite <- (seq_length (length l) 0) at 1. rewrite map_nth_seq_id. reflexivity.
  - rewrite map_map. clear P. revert G. induction S as [|a s H1 IH H2]; intros G; [constructor|]. cbn [map]. constructor; [apply IH; intros p Hp; apply G; right; exact Hp|]. rewrite Forall_map. rewrite Forall_forall in *. intros z Hz. rewrite !G by ((left; reflexivity) || (right; exact Hz)). apply H2, Hz.
Qed.
