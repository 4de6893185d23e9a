From Verif Require Import Base UtilModel CacheModel.

Lemma key_eqb_spec a b : key_eqb a b = true <-> a = b.
Proof.
  destruct a as [a1 a2], b as [b1 b2]. unfold key_eqb. cbn [fst snd]. rewrite andb_true_iff, Z.eqb_eq, Nat.eqb_eq.
  split; [intros [-> ->]; reflexivity|]. intros H; inversion H; auto.
Qed.

Record cinv (s : cstate) : Prop := {
  cinv_cache : forall k r, In (k, r) (cache s) ->
     (r < length (heap s))%nat /\ decimal2bitarray (fst k) (snd k) = Ok (nth r (heap s) []) /\ ~ In r (owned s);
  cinv_owned : forall r, In r (owned s) -> (r < length (heap s))%nat;
  cinv_size : (length (cache s) <= maxsize)%nat }.

Lemma lookup_In k c r : lookup k c = Some r -> In (k, r) c.
Proof.
  induction c as [|[k' r'] c IH]; cbn [lookup]; [discriminate|].
  destruct (key_eqb k k') eqn:E; intros H.
  - apply key_eqb_spec in E. inversion H; subst. left; reflexivity.
  - right. apply IH, H.
Qed.

Lemma remove_In k c x : In x (remove_key k c) -> In x c.
Proof. unfold remove_key. intros H. apply filter_In in H. tauto. Qed.

Lemma lookup_remove_len k c r : lookup k c = Some r -> (length (remove_key k c) < length c)%nat.
Proof.
  assert (Hle : forall c, (length (remove_key k c) <= length c)%nat).
  { intros c0; induction c0 as [|x c0 IH]; [reflexivity|]. unfold remove_key in *. cbn [filter].
    destruct (negb _); cbn [length]; lia. }
  induction c as [|[k' r'] c IH]; cbn [lookup]; [discriminate|].
  destruct (key_eqb k k') eqn:E; intros H.
  - unfold remove_key. cbn [filter fst]. rewrite E. cbn [negb length]. specialize (Hle c). unfold remove_key in Hle. lia.
  - unfold remove_key in *. cbn [filter fst]. rewrite E. cbn [negb length]. specialize (IH H). lia.
Qed.

Lemma cinv_init : cinv cinit.
Proof. split; cbn; intros; try contradiction. unfold maxsize. lia. Qed.

Lemma cached_d2b_inv s n w : cinv s ->
  match cached_d2b s n w with
  | Ok (r, s1) => cinv s1 /\ decimal2bitarray n w = Ok (get_arr s1 r)
  | Err e => decimal2bitarray n w = Err e
  end.
Proof.
  intros I. unfold cached_d2b. destruct (lookup (n, w) (cache s)) as [r|] eqn:L.
  - pose proof (lookup_In _ _ _ L) as Hin. destruct (cinv_cache s I _ _ Hin) as (Hr & Hv & Ho).
    split; [|exact Hv]. split; cbn [heap cache owned].
    + intros k r' [E|Hi]; [inversion E; subst; auto|]. apply (cinv_cache s I k r'). eapply remove_In, Hi.
    + apply (cinv_owned s I).
    + pose proof (lookup_remove_len _ _ _ L). pose proof (cinv_size s I). cbn [length]. lia.
  - destruct (decimal2bitarray n w) as [a|e] eqn:D; cbn [bind]; [|reflexivity].
    split.
    + split.
      * intros k r Hin. cbn [heap cache owned] in *.
        assert (Hin' : In (k, r) (((n, w), length (heap s)) :: cache s)).
        { rewrite <- (firstn_skipn maxsize (((n, w), length (heap s)) :: cache s)). apply in_or_app. left; exact Hin. }
        rewrite app_length. cbn [length]. destruct Hin' as [E|Hi].
        -- inversion E; subst. rewrite app_nth2, Nat.sub_diag by lia. cbn [nth fst snd].
           split; [lia|]. split; [exact D|]. intros Ho. apply (cinv_owned s I) in Ho. lia.
        -- destruct (cinv_cache s I _ _ Hi) as (Hr & Hv & Ho). rewrite app_nth1 by exact Hr. split; [lia|]. auto.
      * intros r Ho. cbn [heap owned] in *. rewrite app_length. cbn [length]. apply (cinv_owned s I) in Ho. lia.
      * cbn [cache]. rewrite firstn_length. lia.
    + unfold get_arr. cbn [heap]. rewrite app_nth2, Nat.sub_diag by lia. reflexivity.
Qed.

Lemma dec_arr_loop_inv ns : forall s w, cinv s ->
  cinv (snd (dec_arr_loop s ns w)) /\ fst (dec_arr_loop s ns w) = dec2bitarray_arr ns w.
Proof.
  unfold dec2bitarray_arr.
  induction ns as [|n ns IH]; intros s w I; cbn [dec_arr_loop mapM bind concat]; [auto|].
  pose proof (cached_d2b_inv s n w I) as H. destruct (cached_d2b s n w) as [[r s1]|e].
  - destruct H as [I1 Hv]. rewrite Hv. cbn [bind]. destruct (IH s1 w I1) as [I2 Hl].
    destruct (dec_arr_loop s1 ns w) as [[l|e] s2]; cbn [fst snd] in *.
    + split; [exact I2|]. destruct (mapM _ ns); cbn [bind] in *; [|discriminate]. inversion Hl. reflexivity.
    + split; [exact I2|]. destruct (mapM _ ns); cbn [bind] in *; [discriminate|]. inversion Hl. reflexivity.
  - rewrite H. auto.
Qed.

Lemma alloc_owned_inv s a : cinv s -> cinv (alloc_owned s a).
Proof.
  intros I. split; cbn [alloc_owned heap cache owned].
  - intros k r Hin. destruct (cinv_cache s I _ _ Hin) as (Hr & Hv & Ho). rewrite app_length, app_nth1 by exact Hr. cbn [length].
    split; [lia|]. split; [exact Hv|]. intros [E|Hc]; [lia|contradiction].
  - intros r [<-|Ho]; rewrite app_length; cbn [length]; [lia|]. apply (cinv_owned s I) in Ho. lia.
  - apply (cinv_size s I).
Qed.

Lemma nth_upd_other {A} (l : list A) r r' a d : r' <> r -> nth r' (upd l r a) d = nth r' l d.
Proof. apply nth_upd_neq. Qed.

Lemma cstep_inv s e : cinv s -> match e with WriteShared _ _ _ => False | _ => True end -> cinv (snd (cstep s e)).
Proof.
  intros I He. destruct e as [n w|ns w|n w|r i v|r i v]; cbn [cstep]; [| | | |contradiction].
  - pose proof (cached_d2b_inv s n w I) as H. destruct (cached_d2b s n w) as [[r s1]|x]; cbn [snd]; [|exact I].
    apply alloc_owned_inv, H.
  - pose proof (dec_arr_loop_inv ns s w I) as [H _]. destruct (dec_arr_loop s ns w) as [[l|x] s1]; cbn [snd] in *; [|exact H].
    apply alloc_owned_inv, H.
  - pose proof (cached_d2b_inv s n w I) as H. destruct (cached_d2b s n w) as [[r s1]|x]; cbn [snd]; [|exact I].
    destruct H as [I1 _]. split; cbn [heap cache owned]; apply I1.
  - cbn [snd]. destruct (existsb (Nat.eqb r) (owned s)) eqn:E; [|exact I].
    apply existsb_exists in E. destruct E as (r0 & Hr0 & E0). apply Nat.eqb_eq in E0. subst r0.
    split; cbn [heap cache owned].
    + intros k r' Hin. destruct (cinv_cache s I _ _ Hin) as (Hr & Hv & Ho). rewrite upd_length.
      rewrite nth_upd_other by (intros ->; contradiction). auto.
    + intros r' Ho. rewrite upd_length. apply (cinv_owned s I), Ho.
    + apply (cinv_size s I).
Qed.

Lemma crun_inv h : forall s, cinv s -> no_shared_write h -> cinv (crun s h).
Proof.
  induction h as [|e h IH]; intros s I Hh; [exact I|]. inversion Hh; subst. cbn [crun].
  apply IH; [apply cstep_inv; assumption|assumption].
Qed.

Lemma cstep_result s n w : cinv s -> fst (cstep s (CallDec n w)) = Some (decimal2bitarray n w).
Proof.
  intros I. cbn [cstep]. pose proof (cached_d2b_inv s n w I) as H. destruct (cached_d2b s n w) as [[r s1]|x]; cbn [fst].
  - destruct H as [_ H]. rewrite H. reflexivity.
  - rewrite H. reflexivity.
Qed.

Lemma cstep_result_arr s ns w : cinv s -> fst (cstep s (CallDecArr ns w)) = Some (dec2bitarray_arr ns w).
Proof.
  intros I. cbn [cstep]. pose proof (dec_arr_loop_inv ns s w I) as [_ H].
  destruct (dec_arr_loop s ns w) as [[l|x] s1]; cbn [fst] in *; rewrite H; reflexivity.
Qed.

Lemma history_independent h : no_shared_write h ->
  (forall n w, fst (cstep (crun cinit h) (CallDec n w)) = Some (dec2bitarray n w)) /\
  (forall ns w, fst (cstep (crun cinit h) (CallDecArr ns w)) = Some (dec2bitarray_arr ns w)) /\
  (length (cache (crun cinit h)) <= 128)%nat.
Proof.
  intros H. pose proof (crun_inv h cinit cinv_init H) as I.
  split; [intros; apply cstep_result, I|]. split; [intros; apply cstep_result_arr, I|]. apply (cinv_size _ I).
Qed.
