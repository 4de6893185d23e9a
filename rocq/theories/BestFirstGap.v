(* best_first_detector with stacks that never overflow: the magnitude of the LLRs is the gap between the decision and the best
   vector that differs from it beyond its first entry, clipped to llr_max. *)
From Coq Require Import Permutation Sorted.
From Verif Require Import Base UtilModel UtilProofs Cplx ModemModel ModemProofs MimoModel MimoSpec MimoProofs KbestProofs BestFirst BestFirstPos.
Open Scope Z_scope.

Section GAP.
  Variables (argsort : list R -> list nat) (yt : list C) (r : list (list C)) (c : list C) (demode : list C -> res (list Z)) (order : nat) (lab : C -> list Z)
            (stack_size : list nat) (L : R) (N : nat).
  Hypothesis (HS : sorting argsort) (HD : demaps demode c order lab) (Ho : (1 <= order)%nat) (Hc : c <> []) (HL : (0 <= L)%R)
             (Hsz : (N - 1 <= length stack_size)%nat) (HN : (1 <= N)%nat) (HU : NoDup c) (HN2 : (2 <= N)%nat) (Hyt : (N <= length yt)%nat).
  Notation pmx := (pm yt r).
  Notation heldx := (held N).

  (* the entries of a node made by expand share their tails *)
  Lemma expand_tl : forall v mu ch e, expand argsort yt r c v mu = Ok ch -> In e ch -> tl (fst e) = v.
  Proof.
    intros v mu ch e. unfold expand. destruct (length yt <? S (length v))%nat; [discriminate|]. cbv zeta. intros E. injection E as <-. set (kids := map _ c). intros He. apply in_map_iff in He as (i & <- & Hi).
    destruct (HS (map snd kids)) as (HP & _). apply (Permutation_in _ HP) in Hi. apply in_seq in Hi. rewrite map_length in Hi. destruct Hi as (_ & Hi). cbn [Nat.add] in Hi. assert (Hin : In (nth i kids ([], 0%R)) kids) by (apply nth_In; exact Hi). unfold kids in Hin at 2. apply in_map_iff in Hin as (s & E & _). rewrite <- E. reflexivity.
  Qed.
  Lemma cov_long : forall u e, (length u < length (fst e))%nat -> cov u e = 0%nat.
  Proof. intros u e H. unfold cov. destruct (list_eq_dec _ _ _) as [E|]; [|reflexivity]. apply (f_equal (@length C)) in E. rewrite skipn_length in E. lia. Qed.
  Lemma cov_eq : forall u (mu : R), cov u (u, mu) = 1%nat.
  Proof. intros u mu. unfold cov. cbn [fst]. rewrite Nat.sub_diag. cbn [skipn]. destruct (list_eq_dec _ _ _); [reflexivity|congruence]. Qed.
  Lemma nmult_leaf : forall u nd, length u = (N - 1)%nat -> chain yt r c N nd -> nmult u nd = 0%nat.
  Proof.
    intros u nd Hu (_ & _ & F). unfold nmult. induction F as [|e nd (He & _) _ IH]; [reflexivity|]. cbn [map fold_right]. rewrite cov_long by lia. exact IH.
  Qed.

  (* the first step of a round: the only one that touches the stack of leaves *)
  Lemma first_step : forall st st', sinv yt r c N st -> stk st 0 = [] -> bf_node argsort yt r c demode order st 0 = Ok st' ->
    stk st' 0 = [] \/ exists leaf, stk st' 0 = [leaf] /\ (forall e, In e leaf -> tl (fst e) = tl (symbols_of leaf)) /\ (tot (tl (symbols_of leaf)) (stacks st') + 1 <= tot (tl (symbols_of leaf)) (stacks st))%nat.
  Proof.
    intros st st' (I1 & I2) Z0. rewrite bf_node_eq by lia. destruct (stk st 1) as [|best rest] eqn:Es; [intros E; injection E as <-; left; exact Z0|].
    destruct (I2 1%nat ltac:(lia)) as (_ & S2). rewrite Es in S2. apply Forall_cons_iff in S2 as [Cb S2r]. destruct (chain_head _ _ _ demode _ _ Cb) as (C1 & C2 & C3 & C4).
    assert (K0 : forall s, stk (with_stacks st (upd (stacks st) 1 s)) 0 = []) by (intros s; rewrite stk_with, nth_upd_neq by lia; exact Z0).
    destruct (radius _ _ _ _ _) as [rad|[]]; try discriminate; [|intros E; injection E as <-; left; apply K0].
    set (u := symbols_of best). pose proof (chain_mult yt r c demode u _ _ Cb) as CM. fold u in CM. rewrite cov_eq in CM.
    set (s1 := match tl best with [] => rest | sib => if le_inf (metric_of sib) rad then insort rest sib else rest end).
    assert (M1 : (mult u s1 <= nmult u (tl best) + mult u rest)%nat). { unfold s1. destruct (tl best) as [|e0 sib]; [lia|]. destruct (le_inf _ rad); [rewrite (mult_insort order stack_size N Ho Hsz HN)|]; lia. }
    pose proof (tot_upd order stack_size N Ho Hsz HN u (stacks st) 1 s1 ltac:(lia)) as T. fold (stk st 1) in T. rewrite Es in T. unfold mult at 1 in T. cbn [map fold_right] in T. fold (mult u rest) in T.
    destruct (expand _ _ _ _ _ _) as [ch|[]] eqn:Ex; try discriminate; intros E; injection E as <-; unfold after_pop; fold s1; [|left; apply K0].
    destruct (le_inf (metric_of ch) rad); [|left; apply K0]. right. exists ch.
    assert (TL : forall e, In e ch -> tl (fst e) = u) by (intros e He; exact (expand_tl _ _ _ _ Ex He)).
    unfold u in Ex. rewrite C3 in Ex. destruct (expand_ok argsort yt r c demode HS (symbols_of best) C2 Hc ltac:(lia)) as (ch' & Ech & Cch & _ & _). rewrite Ex in Ech. injection Ech as <-. rewrite C1 in Cch. replace (S (N - 1)) with N in Cch by lia.
    assert (TH : tl (symbols_of ch) = u). { destruct (chain_head _ _ _ demode _ _ Cch) as (_ & _ & _ & E). specialize (TL (symbols_of ch, metric_of ch)). cbn [fst] in TL. apply TL. rewrite E at 3. left. reflexivity. }
    rewrite stk_with, nth_upd_eq by (rewrite upd_length; lia). fold (stk st 0). rewrite Z0. split; [reflexivity|]. split; [intros e He; rewrite TH; apply TL, He|]. rewrite TH. cbn [with_stacks stacks].
    pose proof (tot_upd order stack_size N Ho Hsz HN u (upd (stacks st) 1 s1) 0 [ch] ltac:(rewrite upd_length; lia)) as T2. rewrite nth_upd_neq in T2 by lia. fold (stk st 0) in T2. rewrite Z0 in T2. cbn [insort]. unfold mult in T2 at 1 2. cbn [map fold_right] in T2. rewrite (nmult_leaf u ch) in T2 by (exact C1 || exact Cch). lia.
  Qed.

  Definition gap (st : bf_state) : Prop :=
    (forall u, length u = (N - 1)%nat -> (tot u (stacks st) <= 1)%nat) /\
    match map_metric st with
    | None => forall z, vector_of c N z -> heldx (stacks st) z
    | Some v => exists xm k, vector_of c N xm /\ v = pmx xm /\ map_bits st = Some (rows lab xm) /\ counter st = repeat (repeat (Some k) order) N /\ (pmx xm <= k <= pmx xm + L)%R /\
        (forall z, vector_of c N z -> heldx (stacks st) z \/ (tl z = tl xm /\ (pmx xm <= pmx z)%R) \/ (k <= pmx z)%R) /\
        (k = (pmx xm + L)%R \/ exists z, vector_of c N z /\ tl z <> tl xm /\ k = pmx z) /\ tot (tl xm) (stacks st) = 0%nat
    end.

  Lemma repeat2_inj : forall (a b : option R), repeat (repeat a order) N = repeat (repeat b order) N -> a = b.
  Proof. intros a b E. destruct N as [|n]; [lia|]. destruct order as [|o]; [lia|]. cbn [repeat] in E. congruence. Qed.

  Lemma tl_len : forall z : list C, length z = N -> length (tl z) = (N - 1)%nat.
  Proof. intros z <-. destruct z; cbn [tl length]; lia. Qed.

  Lemma round_gap : forall st st', inv yt r c order lab L N st -> stk st 0 = [] -> gap st -> Forall (fun s => (meas c st <= s)%nat) stack_size -> bf_round argsort yt r c demode order stack_size L st = Ok st' -> gap st' /\ stk st' 0 = [].
  Proof.
    intros st st' ((kap & HB) & HI) Z0 (G1 & G2) Hs E. unfold bf_round in E. assert (L0 := proj1 HI). rewrite L0 in E.
    destruct (fold_ok argsort yt r c demode order lab L N HS HD Ho Hc (N - 1) 0 st kap HB HI ltac:(lia)) as (ss1 & E1 & I1 & _ & T1 & V1 & _). specialize (V1 Hyt).
    (* the leaves after the nodes have been visited *)
    assert (LF : nth 0 ss1 [] = [] \/ exists leaf, nth 0 ss1 [] = [leaf] /\ (forall e, In e leaf -> tl (fst e) = tl (symbols_of leaf)) /\ (tot (tl (symbols_of leaf)) ss1 + 1 <= tot (tl (symbols_of leaf)) (stacks st))%nat).
    { replace (N - 1)%nat with (S (N - 2)) in E1 by lia. cbn [seq foldM] in E1. destruct (step_ok argsort yt r c demode order lab L N HS HD Ho Hc st kap 0 HB HI ltac:(lia)) as (sa & Ea & Ia & _). rewrite Ea in E1. cbn [bind] in E1.
      destruct (fold_ok argsort yt r c demode order lab L N HS HD Ho Hc (N - 2) 1 (with_stacks st sa) kap HB Ia ltac:(lia)) as (sb & Eb & Ib & Ub & _). rewrite Eb in E1. injection E1 as ->.
      assert (EQ : nth 0 ss1 [] = nth 0 sa []) by (rewrite Ub by lia; reflexivity). rewrite EQ.
      destruct (first_step _ _ HI Z0 Ea) as [F|(leaf & F1 & F2 & F3)]; [left; exact F|]. right. exists leaf. split; [exact F1|]. split; [exact F2|].
      pose proof (proj1 (fold_mult argsort yt r c demode order lab stack_size L N HS HD Ho Hc Hsz HN HU (tl (symbols_of leaf)) (N - 2) 1 (with_stacks st sa) kap _ HB Ia ltac:(lia) Eb)) as FM. cbn [with_stacks stacks] in FM, F3. lia. }
    assert (TT : forall u, (tot u ss1 <= tot u (stacks st))%nat).
    { intros u. exact (proj1 (fold_mult argsort yt r c demode order lab stack_size L N HS HD Ho Hc Hsz HN HU u (N - 1) 0 st kap _ HB HI ltac:(lia) E1)). }
    assert (TL0 : (total c 0 ss1 <= meas c st)%nat). { destruct T1 as [(-> & _)|T1]; [unfold meas; lia|lia]. }
    rewrite E1 in E. cbn [bind] in E. destruct (bf_update _ _ _ _) as [st2|] eqn:E2; [|discriminate]. cbn [bind] in E.
    destruct (update_ok yt r c demode order lab L N HD Ho HL (with_stacks st ss1) kap (binv_with _ _ _ _ _ _ _ _ _ _ HB) I1 HN) as (st2' & kap2 & E2' & SS2 & B2' & _). rewrite E2 in E2'. injection E2' as <-. cbn [with_stacks stacks] in SS2.
    assert (I2 : sinv yt r c N st2). { destruct I1 as (A & B). unfold sinv, stk in *. rewrite SS2. split; [exact A|exact B]. }
    destruct (trim_ok yt r c order stack_size N Ho Hsz HN st2 I2) as (ss3 & E3 & L3 & Z3 & U3). pose proof E3 as E3'. rewrite E3 in E. injection E as <-. split; [|exact Z3].
    assert (TR : forall u, (tot u ss3 <= tot u ss1)%nat). { intros u. destruct (trim_mult order stack_size N Ho Hsz HN u _ _ E3') as (TM & _). cbn [with_stacks stacks] in TM. rewrite SS2 in TM. lia. }
    assert (ST2 : forall i, stk st2 i = nth i ss1 []) by (intros i; unfold stk; rewrite SS2; reflexivity).
    (* what is held before trimming is held after it, or is a leaf *)
    assert (HH : forall z, heldx ss1 z -> heldx ss3 z \/ exists nd e p, In nd (nth 0 ss1 []) /\ In e nd /\ z = p ++ fst e).
    { intros z (i & nd & e & p & P & Pn & Pe & ->). destruct i as [|i]; [right; exists nd, e, p; auto|]. left. exists (S i), nd, e, p. split; [exact P|]. split; [|auto]. rewrite U3, ST2 by exact P. rewrite Forall_forall in Hs. assert (Hin : In (nth i stack_size 0%nat) stack_size) by (apply nth_In; lia). specialize (Hs _ Hin). rewrite firstn_all2; [exact Pn|]. pose proof (count_le yt r c order stack_size N Ho Hsz HN _ (S i) I1 ltac:(lia)) as CL. unfold stk, meas in CL. cbn [with_stacks stacks] in CL. lia. }
    split; [intros u Hu; cbn [with_stacks stacks]; specialize (G1 u Hu); specialize (TT u); specialize (TR u); lia|].
    cbn [with_stacks stacks map_metric map_bits counter]. destruct HB as (B1 & B2).
    destruct LF as [LF|(leaf & F1 & F2 & F3)].
    - (* no leaf *)
      assert (HH' : forall z, heldx ss1 z -> heldx ss3 z). { intros z Hz. destruct (HH z Hz) as [|(nd & e & p & Pn & _)]; [assumption|]. rewrite LF in Pn. destruct Pn. }
      unfold bf_update in E2. fold (stk (with_stacks st ss1) 0) in E2. rewrite stk_with, LF in E2. injection E2 as <-. cbn [with_stacks stacks map_metric map_bits counter]. destruct (map_metric st) as [v|] eqn:Em.
      + destruct G2 as (xm & k & X1 & X2 & X3 & X4 & X5 & X6 & X7 & X8). exists xm, k. repeat (split; [assumption|]). split; [|split; [exact X7|specialize (TT (tl xm)); specialize (TR (tl xm)); lia]]. rewrite X4 in B1. apply repeat2_inj in B1. subst kap.
        intros z Hz. destruct (X6 z Hz) as [Hh|O]; [|right; exact O]. destruct (V1 z Hz Hh) as [Hh1|(k' & Ek & Hk)]; [left; apply HH', Hh1|]. injection Ek as <-. right. right. exact Hk.
      + destruct (map_bits st); [destruct B2|]. subst kap. intros z Hz. destruct (V1 z Hz (G2 z Hz)) as [Hh|(k' & Ek & _)]; [apply HH', Hh|discriminate].
    - (* a leaf *)
      destruct (proj2 I1 0%nat ltac:(lia)) as (_ & S2). rewrite stk_with, F1 in S2. apply Forall_inv in S2. rewrite Nat.sub_0_r in S2. destruct (chain_head _ _ _ demode _ _ S2) as (C1 & C2 & C3 & C4). set (l := symbols_of leaf) in *. assert (Vl : vector_of c N l) by (split; assumption).
      assert (HL' : forall z, vector_of c N z -> heldx ss1 z -> heldx ss3 z \/ (tl z = tl l /\ (pmx l <= pmx z)%R)).
      { intros z (Hz1 & Hz2) Hz. destruct (HH z Hz) as [Hh|(nd & e & p & Pn & Pe & Ez)]; [left; exact Hh|]. right. rewrite F1 in Pn. destruct Pn as [<-|[]]. assert (Le : length (fst e) = N) by (destruct S2 as (_ & _ & F); rewrite Forall_forall in F; apply (F e Pe)).
        assert (p = []) by (apply (f_equal (@length C)) in Ez; rewrite app_length in Ez; destruct p; [reflexivity|cbn in Ez; lia]). subst p. cbn [app] in Ez. subst z. split; [apply F2, Pe|]. rewrite <- C3. apply (chain_min _ _ _ _ _ _ S2 Pe). }
      assert (TL : tot (tl l) (stacks st) = 1%nat /\ tot (tl l) ss3 = 0%nat). { specialize (G1 (tl l) (tl_len l C1)). specialize (TR (tl l)). lia. } destruct TL as (TL1 & TL2).
      unfold bf_update in E2. fold (stk (with_stacks st ss1) 0) in E2. rewrite stk_with, F1 in E2. cbn [with_stacks stacks map_metric map_bits counter] in E2. rewrite B1, map_map_repeat, map_map_repeat in E2. fold l in E2. rewrite (bit_rows_ok _ _ _ _ HD Ho) in E2 by exact C2. cbn [bind] in E2.
      destruct (map_metric st) as [v|] eqn:Em.
      + destruct (map_bits st) as [mb|] eqn:Eb; [|destruct B2]. destruct G2 as (xm & k & X1 & X2 & X3 & X4 & X5 & X6 & X7 & X8). rewrite X4 in B1. apply repeat2_inj in B1. subst kap v. injection X3 as ->.
        assert (NT : tl l <> tl xm) by (intros F; rewrite F in TL1; lia).
        assert (HZ : forall z, vector_of c N z -> heldx ss3 z \/ (tl z = tl l /\ (pmx l <= pmx z)%R) \/ (tl z = tl xm /\ (pmx xm <= pmx z)%R) \/ (k <= pmx z)%R).
        { intros z Hz. destruct (X6 z Hz) as [Hh|[O|O]]; [|auto|auto]. destruct (V1 z Hz Hh) as [Hh1|(k' & Ek & Hk)]; [destruct (HL' z Hz Hh1); auto|]. injection Ek as <-. auto. }
        destruct (Rlt_dec (metric_of leaf) (pmx xm)) as [Hlt|Hge]; cbn [bind] in E2; injection E2 as <-; cbn [stacks map_metric map_bits counter].
        * exists l, (Rmin (pmx xm) (pmx l + L))%R. split; [exact Vl|]. split; [exact C3|]. split; [reflexivity|]. split; [cbn [min_opt clip_opt]; do 3 f_equal; rewrite C3 in *; unfold Rmin, Rmax; repeat destruct (Rle_dec _ _); lra|]. rewrite C3 in Hlt. split; [unfold Rmin; destruct (Rle_dec _ _); lra|]. split; [|split; [|exact TL2]].
          -- intros z Hz. destruct (HZ z Hz) as [H|[H|[(_ & H)|H]]]; [left; exact H|right; left; exact H| |]; right; right; unfold Rmin; destruct (Rle_dec _ _); lra.
          -- unfold Rmin. destruct (Rle_dec _ _); [|left; reflexivity]. right. exists xm. split; [exact X1|]. split; [congruence|reflexivity].
        * exists xm, (Rmin k (pmx l))%R. split; [exact X1|]. split; [reflexivity|]. split; [reflexivity|]. rewrite C3 in Hge. split; [cbn [min_opt clip_opt]; do 3 f_equal; rewrite C3 in *; unfold Rmin, Rmax; repeat destruct (Rle_dec _ _); lra|]. split; [unfold Rmin; destruct (Rle_dec _ _); lra|]. split; [|split].
          -- intros z Hz. destruct (HZ z Hz) as [H|[(_ & H)|[H|H]]]; [left; exact H| |right; left; exact H|]; right; right; unfold Rmin; destruct (Rle_dec _ _); lra.
          -- unfold Rmin. destruct (Rle_dec _ _); [exact X7|]. right. exists l. split; [exact Vl|]. split; [exact NT|reflexivity].
          -- specialize (TT (tl xm)). specialize (TR (tl xm)). lia.
      + destruct (map_bits st) as [mb|]; [destruct B2|]. subst kap. cbn [bind] in E2. injection E2 as <-. cbn [stacks map_metric map_bits counter]. exists l, (pmx l + L)%R. split; [exact Vl|]. split; [exact C3|]. split; [reflexivity|]. split; [cbn [min_opt clip_opt]; rewrite C3; reflexivity|]. split; [lra|]. split; [|split; [left; reflexivity|exact TL2]].
        intros z Hz. destruct (V1 z Hz (G2 z Hz)) as [Hh|(k' & Ek & _)]; [|discriminate]. destruct (HL' z Hz Hh) as [H|H]; auto.
  Qed.
  Lemma loop_gap : forall d fuel st st', inv yt r c order lab L N st -> stk st 0 = [] -> gap st -> (meas c st <= d)%nat -> Forall (fun s => (d <= s)%nat) stack_size -> bf_loop argsort yt r c demode order stack_size L fuel st = Some (Ok st') -> gap st'.
  Proof.
    intros d. induction fuel as [|fuel IH]; intros st st' HI Z0 HG Hd Hs; cbn [bf_loop]; destruct (bf_busy st) eqn:Eb; try discriminate; try (intros E; injection E as <-; exact HG).
    destruct (round_ok argsort yt r c demode order lab stack_size L N HS HD Ho Hc HL Hsz HN st HI Eb) as (st1 & E1 & I1 & M1 & _). rewrite E1. assert (Hs' : Forall (fun s => (meas c st <= s)%nat) stack_size) by (eapply Forall_impl; [|exact Hs]; intros s H; cbv beta in H; lia). destruct (round_gap _ _ HI Z0 HG Hs' E1) as (G & Z). apply IH; try assumption. lia.
  Qed.
End GAP.
