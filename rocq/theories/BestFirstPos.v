(* best_first_detector: when the maximum-likelihood decision is unique and no stack overflows, the LLRs are not zero. *)
From Coq Require Import Permutation Sorted.
From Verif Require Import Base UtilModel UtilProofs Cplx ModemModel ModemProofs MimoModel MimoSpec MimoProofs KbestProofs BestFirst.
Open Scope Z_scope.

Lemma C_dec : forall a b : C, {a = b} + {a <> b}.
Proof. intros [a1 a2] [b1 b2]. destruct (Req_EM_T a1 b1) as [->|H1]; [destruct (Req_EM_T a2 b2) as [->|H2]; [left; reflexivity|right; congruence]|right; congruence]. Qed.

Section POS.
  Variables (argsort : list R -> list nat) (yt : list C) (r : list (list C)) (c : list C) (demode : list C -> res (list Z)) (order : nat) (lab : C -> list Z)
            (stack_size : list nat) (L : R) (N : nat).
  Hypothesis (HS : sorting argsort) (HD : demaps demode c order lab) (Ho : (1 <= order)%nat) (Hc : c <> []) (HL : (0 <= L)%R)
             (Hsz : (N - 1 <= length stack_size)%nat) (HN : (1 <= N)%nat) (HU : NoDup c) (HL0 : (0 < L)%R).
  Variable x : list C.
  Notation pmx := (pm yt r).

  (* does an entry of a chain lead to x? *)
  Definition cov (e : list C * R) : nat := if list_eq_dec C_dec (skipn (length x - length (fst e)) x) (fst e) then 1%nat else 0%nat.
  Definition nmult (nd : node) : nat := fold_right Nat.add 0%nat (map cov nd).
  Definition mult (s : list node) : nat := fold_right Nat.add 0%nat (map nmult s).
  Definition tot (ss : list (list node)) : nat := fold_right Nat.add 0%nat (map mult ss).

  Lemma sum_perm : forall l l', Permutation l l' -> fold_right Nat.add 0%nat l = fold_right Nat.add 0%nat l'.
  Proof. intros l l' P. induction P; cbn [fold_right]; lia. Qed.
  Lemma mult_insort : forall l nd, mult (insort l nd) = (nmult nd + mult l)%nat.
  Proof. intros l nd. unfold mult. induction l as [|a l IH]; cbn [insort map fold_right]; [reflexivity|]. destruct (Rlt_dec _ _); cbn [map fold_right]; [reflexivity|]. rewrite IH. lia. Qed.
  Lemma tot_upd : forall ss j s, (j < length ss)%nat -> (tot (upd ss j s) + mult (nth j ss []) = tot ss + mult s)%nat.
  Proof.
    unfold tot. induction ss as [|s0 ss IH]; intros [|j] s Hj; cbn [length] in Hj; try lia; cbn [upd map fold_right nth]; [lia|]. specialize (IH j s ltac:(lia)). lia.
  Qed.
  (* at most one child of v leads to x, and none if v does not *)
  Lemma kids_cov : forall v (f : C -> R) l, NoDup l -> (fold_right Nat.add 0%nat (map (fun s => cov (s :: v, f s)) l) <= cov (v, 0%R))%nat.
  Proof.
    intros v f l Hl. unfold cov at 2. cbn [fst].
    assert (K : forall s, cov (s :: v, f s) = 1%nat -> skipn (length x - length v) x = v /\ (length v < length x)%nat /\ s = nth (length x - S (length v)) x C0).
    { intros s. unfold cov. cbn [fst length]. destruct (list_eq_dec _ _ _) as [E|]; [|discriminate]. intros _. assert (Hlen : (length v < length x)%nat) by (apply (f_equal (@length C)) in E; rewrite skipn_length in E; cbn [length] in E; lia). set (d := (length x - S (length v))%nat) in *.
      assert (G : forall (z : list C) k a w, skipn k z = a :: w -> skipn (S k) z = w /\ nth k z C0 = a) by (clear; induction z as [|b z IH]; intros [|k] a w E; cbn [skipn nth] in *; try discriminate; [injection E as <- <-; auto|apply (IH k), E]). destruct (G _ _ _ _ E) as (G1 & G2). replace (length x - length v)%nat with (S d) by (unfold d; lia). auto. }
    assert (Z : forall s, cov (s :: v, f s) = 0%nat \/ cov (s :: v, f s) = 1%nat) by (intros s; unfold cov; destruct (list_eq_dec _ _ _); auto).
    assert (W : forall l, (forall s, In s l -> cov (s :: v, f s) = 0%nat) -> fold_right Nat.add 0%nat (map (fun s => cov (s :: v, f s)) l) = 0%nat).
    { clear. induction l as [|s l IH]; intros H; [reflexivity|]. cbn [map fold_right]. rewrite (H s) by (left; reflexivity). apply IH. intros t Ht. apply H. right. exact Ht. }
    destruct (list_eq_dec C_dec (skipn (length x - length v) x) v) as [E|NE].
    - induction Hl as [|s l Hs Hl IH]; [cbn; lia|]. cbn [map fold_right]. destruct (Z s) as [E0|E1]; [rewrite E0; exact IH|]. rewrite W; [rewrite E1; lia|]. intros t Ht. destruct (Z t) as [E0|Et]; [exact E0|]. exfalso. apply Hs. destruct (K s E1) as (_ & _ & ->). destruct (K t Et) as (_ & _ & Et'). rewrite <- Et'. exact Ht.
    - rewrite W; [lia|]. intros s _. destruct (Z s) as [E0|E1]; [exact E0|]. destruct (K s E1) as (E & _). congruence.
  Qed.
  Lemma cov_fst : forall v a b, cov (v, a) = cov (v, b). Proof. reflexivity. Qed.
  Lemma expand_mult : forall v mu ch, expand argsort yt r c v mu = Ok ch -> (nmult ch <= cov (v, 0%R))%nat.
  Proof.
    intros v mu ch. unfold expand. destruct (length yt <? S (length v))%nat; [discriminate|]. cbv zeta. intros E. injection E as <-. set (f := fun s : C => (_ : list C * R)). set (kids := map f c).
    destruct (HS (map snd kids)) as (HP & _). rewrite map_length in HP. unfold nmult. rewrite map_map. rewrite (sum_perm _ (map (fun i => cov (nth i kids ([], 0%R))) (seq 0 (length kids)))) by (apply Permutation_map, HP). rewrite <- (map_map (fun i => nth i kids ([], 0%R)) cov), map_nth_seq_id. unfold kids. rewrite map_map.
    apply (kids_cov v (fun s => snd (f s)) c HU).
  Qed.
  Lemma chain_mult : forall len nd, chain yt r c len nd -> nmult nd = (cov (symbols_of nd, 0%R) + nmult (tl nd))%nat.
  Proof. intros len nd H. destruct (chain_head _ _ _ demode _ _ H) as (_ & _ & _ & E). rewrite E at 1. reflexivity. Qed.

  Lemma node_mult : forall st j st', sinv yt r c N st -> (S j < N)%nat -> bf_node argsort yt r c demode order st j = Ok st' -> (tot (stacks st') <= tot (stacks st))%nat /\ map_metric st' = map_metric st /\ counter st' = counter st /\ map_bits st' = map_bits st.
  Proof.
    intros st j st' (I1 & I2) Hj. rewrite bf_node_eq by lia. destruct (stk st (S j)) as [|best rest] eqn:Es; [intros E; injection E as <-; auto|].
    destruct (I2 (S j) ltac:(lia)) as (_ & S2). rewrite Es in S2. apply Forall_cons_iff in S2 as [Cb S2r]. pose proof (chain_mult _ _ Cb) as CM.
    assert (U1 : forall s, (tot (upd (stacks st) (S j) s) + (nmult best + mult rest) = tot (stacks st) + mult s)%nat). { intros s. pose proof (tot_upd (stacks st) (S j) s ltac:(lia)) as T. fold (stk st (S j)) in T. rewrite Es in T. exact T. }
    set (s1 := fun rad => match tl best with [] => rest | sib => if le_inf (metric_of sib) rad then insort rest sib else rest end).
    assert (M1 : forall rad, (mult (s1 rad) <= nmult (tl best) + mult rest)%nat). { intros rad. unfold s1. destruct (tl best) as [|e0 sib]; [lia|]. destruct (le_inf _ rad); [rewrite mult_insort|]; lia. }
    destruct (radius _ _ _ _ _) as [rad|[]]; try discriminate.
    2:{ intros E. injection E as <-. cbn [with_stacks stacks map_metric counter map_bits]. split; [|auto]. specialize (U1 rest). lia. }
    specialize (M1 rad). pose proof (U1 (s1 rad)) as U. destruct (expand _ _ _ _ _ _) as [ch|[]] eqn:Ex; try discriminate; intros E; injection E as <-; cbn [with_stacks stacks map_metric counter map_bits]; (split; [|auto]); unfold after_pop; fold (s1 rad).
    - apply expand_mult in Ex. destruct (le_inf (metric_of ch) rad); [|lia]. pose proof (tot_upd (upd (stacks st) (S j) (s1 rad)) j (insort (nth j (stacks st) []) ch) ltac:(rewrite upd_length; lia)) as T. rewrite nth_upd_neq in T by lia. rewrite mult_insort in T. lia.
    - lia.
  Qed.
  Lemma fold_mult : forall k a st kap st', binv yt r c order lab L N st kap -> sinv yt r c N st -> (a + k < N)%nat -> foldM (bf_node argsort yt r c demode order) (seq a k) st = Ok st' -> (tot (stacks st') <= tot (stacks st))%nat /\ map_metric st' = map_metric st.
  Proof.
    induction k as [|k IH]; intros a st kap st' HB HI Hk; cbn [seq foldM]; [intros E; injection E as <-; auto|].
    destruct (step_ok argsort yt r c demode order lab L N HS HD Ho Hc st kap a HB HI ltac:(lia)) as (ss1 & E1 & I1 & _). rewrite E1. cbn [bind]. intros E. destruct (node_mult st a (with_stacks st ss1) HI ltac:(lia) E1) as (T1 & M1 & _). destruct (IH (S a) (with_stacks st ss1) kap st' (binv_with _ _ _ _ _ _ _ _ _ _ HB) I1 ltac:(lia) E) as (T & M). split; [lia|congruence].
  Qed.

  Definition good (st : bf_state) : Prop := (tot (stacks st) <= 1)%nat /\ (map_metric st = Some (pmx x) -> tot (stacks st) = 0%nat /\ exists k, counter st = repeat (repeat (Some k) order) N /\ (pmx x < k)%R).

  Lemma mult_firstn : forall k s, (mult (firstn k s) <= mult s)%nat.
  Proof. unfold mult. intros k. induction k as [|k IH]; intros [|a s]; cbn [firstn map fold_right]; try lia. specialize (IH s). lia. Qed.
  Lemma trim_mult : forall st st', bf_trim stack_size st = Ok st' -> (tot (stacks st') + mult (stk st 0) <= tot (stacks st))%nat /\ map_metric st' = map_metric st /\ counter st' = counter st.
  Proof.
    intros st st'. unfold bf_trim, stk. destruct (stacks st) as [|s0 up] eqn:Es; [intros E; injection E as <-; rewrite Es; cbn; auto|]. destruct (_ <? _)%nat; [discriminate|]. intros E. injection E as <-. cbn [stacks map_metric counter nth]. split; [|auto]. unfold tot. cbn [map fold_right]. change (mult []) with 0%nat. cbn [Nat.add].
    enough (G : forall sz u, (fold_right Nat.add 0 (map mult (map (fun ns => firstn (fst ns) (snd ns)) (combine sz u))) <= fold_right Nat.add 0 (map mult u))%nat) by (specialize (G stack_size up); lia).
    intros sz u. revert sz. induction u as [|a u IH]; intros [|z sz]; cbn [combine map fold_right]; try lia. specialize (IH sz). pose proof (mult_firstn z a). cbn [fst snd]. lia.
  Qed.

  Hypothesis (Lx : length x = N) (Ux : forall x', vector_of c N x' -> x' <> x -> (pm yt r x < pm yt r x')%R).
  Lemma cov_x : forall e, fst e = x -> cov e = 1%nat.
  Proof. intros e He. unfold cov. rewrite He. rewrite Nat.sub_diag. cbn [skipn]. destruct (list_eq_dec _ _ _); congruence. Qed.

  Lemma update_trim : forall st kap st2 st3, binv yt r c order lab L N st kap -> sinv yt r c N st -> (tot (stacks st) <= 1)%nat -> (map_metric st = Some (pmx x) -> tot (stacks st) = 0%nat /\ exists k, kap = Some k /\ (pmx x < k)%R) ->
    bf_update demode order L st = Ok st2 -> bf_trim stack_size st2 = Ok st3 -> good st3.
  Proof.
    intros st kap st2 st3 (B1 & B2) (I1 & I2) T1 TM E2 E3. destruct (trim_mult _ _ E3) as (T3 & M3 & K3). unfold good. rewrite M3, K3. clear E3 M3 K3.
    unfold bf_update in E2. fold (stk st 0) in E2. destruct (stk st 0) as [|leaf others] eqn:Es.
    { injection E2 as <-. split; [lia|]. intros Em. destruct (TM Em) as (Tz & k & -> & Hk). split; [lia|]. exists k. split; assumption. }
    destruct (I2 0%nat ltac:(lia)) as (_ & S2). rewrite Es in S2. apply Forall_cons_iff in S2 as [Cl _]. rewrite Nat.sub_0_r in Cl. destruct (chain_head _ _ _ demode _ _ Cl) as (C1 & C2 & C3 & C4). pose proof (chain_mult _ _ Cl) as CM.
    assert (MS : (cov (symbols_of leaf, 0%R) <= mult (stk st 0))%nat) by (rewrite Es; unfold mult; cbn [map fold_right]; lia).
    assert (LE : forall a, (mult (nth a (stacks st) []) <= tot (stacks st))%nat). { clear. unfold tot. induction (stacks st) as [|s ss IH]; intros [|a]; cbn [nth map fold_right]; try (cbn; lia). specialize (IH a). lia. }
    assert (VL : vector_of c N (symbols_of leaf)) by (split; assumption).
    rewrite B1, map_map_repeat, map_map_repeat in E2. rewrite (bit_rows_ok _ _ _ _ HD Ho) in E2 by exact C2. cbn [bind] in E2.
    destruct (map_metric st) as [v|] eqn:Em.
    - destruct (map_bits st) as [mb|]; [|destruct B2]. destruct B2 as (x0 & k & _ & Ev & _ & -> & Hk). destruct (Rlt_dec (metric_of leaf) v) as [Hlt|Hge]; cbn [bind] in E2; injection E2 as <-; cbn [stacks map_metric counter] in *; unfold stk in *; cbn [stacks] in *; rewrite Es in *.
      + split; [lia|]. intros Em2. injection Em2 as Em2. assert (SX : symbols_of leaf = x). { destruct (list_eq_dec C_dec (symbols_of leaf) x) as [E|NE]; [exact E|]. specialize (Ux _ VL NE). lra. } rewrite (cov_x (symbols_of leaf, 0%R) SX) in MS. split; [lia|]. cbn [min_opt clip_opt]. eexists. split; [reflexivity|]. rewrite <- Em2. unfold Rmin, Rmax. repeat destruct (Rle_dec _ _); lra.
      + split; [lia|]. intros Em2. injection Em2 as Em2. destruct (TM (f_equal Some Em2)) as (Tz & k' & Ek & Hk'). injection Ek as <-. split; [lia|]. cbn [min_opt clip_opt]. eexists. split; [reflexivity|].
        assert (SX : symbols_of leaf <> x). { intros E. specialize (LE 0%nat). rewrite (cov_x (symbols_of leaf, 0%R) E) in MS. rewrite Es in LE. lia. } specialize (Ux _ VL SX). rewrite <- C3 in Ux. rewrite Em2. unfold Rmin, Rmax. repeat destruct (Rle_dec _ _); lra.
    - destruct (map_bits st) as [mb|]; [destruct B2|]. subst kap. cbn [bind] in E2. injection E2 as <-. cbn [stacks map_metric counter] in *. unfold stk in *. cbn [stacks] in *. rewrite Es in *. split; [lia|]. intros Em2. injection Em2 as Em2.
      assert (SX : symbols_of leaf = x). { destruct (list_eq_dec C_dec (symbols_of leaf) x) as [E|NE]; [exact E|]. specialize (Ux _ VL NE). lra. } rewrite (cov_x (symbols_of leaf, 0%R) SX) in MS. split; [lia|]. cbn [min_opt clip_opt]. eexists. split; [reflexivity|]. lra.
  Qed.
  Lemma round_good : forall st st', inv yt r c order lab L N st -> good st -> bf_round argsort yt r c demode order stack_size L st = Ok st' -> good st'.
  Proof.
    intros st st' ((kap & HB) & HI) (G1 & G2) E. unfold bf_round in E. assert (L0 := proj1 HI). rewrite L0 in E. destruct (fold_ok argsort yt r c demode order lab L N HS HD Ho Hc (N - 1) 0 st kap HB HI ltac:(lia)) as (ss1 & E1 & I1 & _). rewrite E1 in E. cbn [bind] in E.
    destruct (fold_mult (N - 1) 0 st kap _ HB HI ltac:(lia) E1) as (T & M). destruct (bf_update _ _ _ _) as [st2|] eqn:E2; [|discriminate]. cbn [bind] in E. apply (update_trim (with_stacks st ss1) kap st2 st'); try assumption.
    - lia.
    - intros Em. rewrite M in Em. destruct (G2 Em) as (Z & k & Ek & Hk). split; [lia|]. exists k. split; [|exact Hk]. destruct HB as (B1 & _). rewrite B1 in Ek. destruct N as [|n]; [lia|]. cbn [repeat] in Ek. destruct order as [|o]; [lia|]. cbn [repeat] in Ek. congruence.
  Qed.
  Lemma loop_good : forall fuel st st', inv yt r c order lab L N st -> good st -> bf_loop argsort yt r c demode order stack_size L fuel st = Some (Ok st') -> good st'.
  Proof.
    induction fuel as [|fuel IH]; intros st st' HI HG; cbn [bf_loop]; destruct (bf_busy st) eqn:Eb; try discriminate; try (intros E; injection E as <-; exact HG).
    destruct (round_ok argsort yt r c demode order lab stack_size L N HS HD Ho Hc HL Hsz HN st HI Eb) as (st1 & E1 & I1 & _). rewrite E1. apply IH; [exact I1|]. exact (round_good _ _ HI HG E1).
  Qed.
End POS.

(* a vector all of whose suffixes are the best of their length is never lost, whatever the (positive) stack sizes *)
Section BEST.
  Variables (argsort : list R -> list nat) (yt : list C) (r : list (list C)) (c : list C) (demode : list C -> res (list Z)) (order : nat) (lab : C -> list Z)
            (stack_size : list nat) (L : R) (N : nat).
  Hypothesis (HS : sorting argsort) (HD : demaps demode c order lab) (Ho : (1 <= order)%nat) (Hc : c <> []) (HL : (0 <= L)%R)
             (Hsz : (N - 1 <= length stack_size)%nat) (HN : (1 <= N)%nat) (Hyt : (N <= length yt)%nat) (H1 : Forall (fun s => (1 <= s)%nat) stack_size).
  Variable x : list C.
  Hypothesis (Vx : vector_of c N x) (Bx : forall i v, (i <= N)%nat -> vector_of c (N - i) v -> (pm yt r v <= pm yt r (skipn i x))%R -> v = skipn i x).
  Definition alive (st : bf_state) : Prop := held N (stacks st) x \/ beaten yt r (map_metric st) x.
  Lemma round_alive : forall st st', inv yt r c order lab L N st -> alive st -> bf_round argsort yt r c demode order stack_size L st = Ok st' -> alive st'.
  Proof.
    intros st st' ((kap & HB) & HI) HA E. unfold bf_round in E. assert (L0 := proj1 HI). rewrite L0 in E.
    destruct (fold_ok argsort yt r c demode order lab L N HS HD Ho Hc (N - 1) 0 st kap HB HI ltac:(lia)) as (ss1 & E1 & I1 & _ & _ & V1 & _). rewrite E1 in E. cbn [bind] in E.
    destruct (update_ok yt r c demode order lab L N HD Ho HL (with_stacks st ss1) kap (binv_with _ _ _ _ _ _ _ _ _ _ HB) I1 HN) as (st2 & kap2 & E2 & SS2 & _ & _ & _ & _ & M2 & F2). rewrite E2 in E. cbn [bind] in E. cbn [with_stacks stacks] in SS2.
    assert (I2 : sinv yt r c N st2). { destruct I1 as (A & B). unfold sinv, stk in *. rewrite SS2. split; [exact A|exact B]. }
    destruct (trim_ok yt r c order stack_size N Ho Hsz HN st2 I2) as (ss3 & E3 & L3 & Z3 & U3). rewrite E3 in E. injection E as <-. unfold alive. cbn [with_stacks stacks map_metric].
    assert (HB' : beaten yt r (map_metric st) x -> beaten yt r (map_metric st2) x) by apply M2. destruct HA as [Hh|Hb]; [|right; apply HB', Hb]. destruct (V1 Hyt x Vx Hh) as [(i & nd & e & p & P & Pn & Pe & Ex)|Hb]; [|right; apply HB', (out_beaten _ _ _ _ _ _ _ _ _ _ HB Hb)].
    destruct i as [|i]; [right; rewrite Ex; apply (F2 nd e p); assumption|]. left. destruct I1 as (_ & I1). destruct (I1 (S i) P) as (So & Ch). rewrite stk_with in So, Ch.
    assert (Cn : chain yt r c (N - S i) nd) by (rewrite Forall_forall in Ch; apply Ch, Pn). assert (Le : length (fst e) = (N - S i)%nat) by (destruct Cn as (_ & _ & F); rewrite Forall_forall in F; apply (F e Pe)).
    assert (Ef : fst e = skipn (S i) x). { assert (Lp : length p = S i) by (apply (f_equal (@length C)) in Ex; rewrite app_length in Ex; destruct Vx as (Lx & _); lia). rewrite Ex, skipn_app, Lp, Nat.sub_diag, skipn_all2 by lia. reflexivity. }
    assert (ST2 : stk st2 (S i) = nth (S i) ss1 []) by (unfold stk; rewrite SS2; reflexivity).
    destruct (nth (S i) ss1 []) as [|nd0 rest] eqn:Es; [destruct Pn|]. assert (C0' : chain yt r c (N - S i) nd0) by (apply Forall_inv in Ch; exact Ch). destruct (chain_head _ _ _ demode _ _ C0') as (K1 & K2 & K3 & K4).
    assert (Me : (metric_of nd0 <= metric_of nd)%R). { destruct Pn as [->|Pn]; [lra|]. inversion So as [|? ? _ So']. subst. rewrite Forall_forall in So'. apply So', Pn. }
    pose proof (chain_min _ _ _ _ _ _ Cn Pe) as Me2. assert (Eq : symbols_of nd0 = skipn (S i) x). { apply Bx; [lia|split; assumption|]. rewrite <- K3, <- Ef. lra. }
    exists (S i), nd0, (symbols_of nd0, metric_of nd0), (firstn (S i) x). split; [exact P|]. split; [|split; [rewrite K4 at 3; left; reflexivity|cbn [fst]; rewrite Eq; symmetry; apply firstn_skipn]].
    rewrite U3, ST2 by exact P. rewrite Forall_forall in H1. assert (Hin : In (nth i stack_size 0%nat) stack_size) by (apply nth_In; lia). specialize (H1 _ Hin). destruct (nth i stack_size 0%nat) as [|t]; [lia|]. left. reflexivity.
  Qed.
  Lemma loop_alive : forall fuel st st', inv yt r c order lab L N st -> alive st -> bf_loop argsort yt r c demode order stack_size L fuel st = Some (Ok st') -> alive st'.
  Proof.
    induction fuel as [|fuel IH]; intros st st' HI HG; cbn [bf_loop]; destruct (bf_busy st) eqn:Eb; try discriminate; try (intros E; injection E as <-; exact HG).
    destruct (round_ok argsort yt r c demode order lab stack_size L N HS HD Ho Hc HL Hsz HN st HI Eb) as (st1 & E1 & I1 & _). rewrite E1. apply IH; [exact I1|]. exact (round_alive _ _ HI HG E1).
  Qed.
End BEST.
