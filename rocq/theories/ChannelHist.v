(* Channels: MIMO gains, propagation, histories. *)
From Verif Require Import Base UtilModel UtilProofs Cplx ModemModel ModemProofs MimoModel MimoSpec MimoProofs ChannelModel ChannelSpec ChannelProofs ChannelFading ChannelCorr ChannelRun.
Open Scope Z_scope.

Lemma Csum_prod : forall (f : nat -> nat -> C) a b, Csum (map (fun j => Csum (map (f j) (seq 0 b))) (seq 0 a)) = Csum (map (fun p => f (fst p) (snd p)) (list_prod (seq 0 a) (seq 0 b))).
Proof.
  intros f a b. induction (seq 0 a) as [|x l IH]; [reflexivity|]. cbn [list_prod map Csum fold_right]. rewrite map_app, Csum_app, map_map. fold (Csum (map (fun j => Csum (map (f j) (seq 0 b))) l)). rewrite IH. reflexivity.
Qed.
Lemma Rsum_prod : forall (f : nat -> nat -> R) a b, Rsum (map (fun j => Rsum (map (f j) (seq 0 b))) (seq 0 a)) = Rsum (map (fun p => f (fst p) (snd p)) (list_prod (seq 0 a) (seq 0 b))).
Proof.
  intros f a b. induction (seq 0 a) as [|x l IH]; [reflexivity|]. cbn [list_prod map Rsum fold_right]. rewrite map_app, Rsum_app, map_map. fold (Rsum (map (fun j => Rsum (map (f j) (seq 0 b))) l)). rewrite IH. reflexivity.
Qed.
Lemma NoDup_prod : forall {A B} (l : list A) (l' : list B), NoDup l -> NoDup l' -> NoDup (list_prod l l').
Proof.
  intros A B l l' H H'. induction H as [|x l Hx H IH]; [constructor|]. cbn [list_prod]. apply NoDup_app_intro; [|exact IH|].
  - apply FinFun.Injective_map_NoDup; [|exact H']. intros a b E. injection E. auto.
  - intros p H1 H2. apply in_map_iff in H1 as (b & <- & _). apply in_prod_iff in H2 as (H2 & _). contradiction.
Qed.
Lemma energy_entries : forall r c m, shape r c m -> energy_of m = Rsum (map (fun i => Rsum (map (fun j => Cnorm2 (entry m i j)) (seq 0 c))) (seq 0 r)).
Proof.
  intros r c m H. rewrite (shape_build r c m H) at 1. unfold energy_of, build. rewrite map_map. apply Rsum_map_ext. intros i _. rewrite map_map. reflexivity.
Qed.
Lemma Rsum_mul_r : forall {A} (k : R) (f : A -> R) l, Rsum (map (fun x => f x * k)%R l) = (Rsum (map f l) * k)%R.
Proof. intros A k f l. rewrite Rmult_comm, <- Rsum_map_mul. apply Rsum_map_ext. intros; ring. Qed.
(* energy of a root *)
Lemma root_energy : forall n m s, root_of n m s -> Rsum (map (fun i => Rsum (map (fun j => Cnorm2 (entry s i j)) (seq 0 n))) (seq 0 n)) = re (diag_sum n m).
Proof.
  intros n m s (_ & H). unfold diag_sum. rewrite Csum_re, map_map. apply Rsum_map_ext. intros i Hi. apply in_seq in Hi. rewrite <- (H i i) by lia. rewrite Csum_re, map_map. apply Rsum_map_ext. intros j _. unfold Cnorm2, Cmul, Cconj. cbn [re im]. ring.
Qed.
Lemma root_real : forall n m s, root_of n m s -> im (diag_sum n m) = 0%R.
Proof.
  intros n m s (_ & H). unfold diag_sum. rewrite Csum_im, map_map. rewrite (Rsum_map_ext _ (fun _ => 0%R)); [rewrite Rsum_const; ring|]. intros i Hi. apply in_seq in Hi. rewrite <- (H i i) by lia. rewrite Csum_im, map_map. rewrite (Rsum_map_ext _ (fun _ => 0%R)); [rewrite Rsum_const; ring|]. intros j _. unfold Cmul, Cconj. cbn [re im]. ring.
Qed.
Lemma gain_shape : forall rx tx sr st mean g, shape rx tx (gain_matrix rx tx sr st mean g).
Proof. intros. apply (build_shape rx tx). Qed.
Definition drawn {W} (cplx : bool) (z : bool * (nat * (nat * nat)) -> W -> R) (a : nat) (w : W) (j k : nat) : C :=
  if cplx then Cscale (sqrt (1 / 2)) (mkC (z (true, (a, (j, k))) w) (z (false, (a, (j, k))) w)) else ofR (z (true, (a, (j, k))) w).
Lemma gain_energy : forall {W} (E : (W -> R) -> R) z cplx rx tx rr rt sr st mean a, expectation E -> white E (list_prod [true; false] (list_prod [a] (list_prod (seq 0 rx) (seq 0 tx)))) z -> root_of rx rr sr -> root_of tx rt st -> shape rx tx mean ->
  E (fun w => energy_of (gain_matrix rx tx sr st mean (drawn cplx z a w))) = (re (diag_sum tx rt * diag_sum rx rr)%C + energy_of mean)%R.
Proof.
  intros W E z cplx rx tx rr rt sr st mean a HE HW Hr Ht Hm.
  set (cf := fun (i l : nat) (p : nat * nat) => (entry sr i (fst p) * entry st l (snd p))%C). set (P := list_prod (seq 0 rx) (seq 0 tx)).
  rewrite (ex_ext E HE _ (fun w => Rsum (map (fun i => Rsum (map (fun l => Cnorm2 (Csum (map (fun p => cf i l p * drawn cplx z a w (fst p) (snd p)) P) + entry mean i l)%C) (seq 0 tx))) (seq 0 rx)))).
  2:{ intros w. rewrite (energy_entries rx tx) by apply gain_shape. apply Rsum_map_ext. intros i Hi. apply in_seq in Hi. apply Rsum_map_ext. intros l Hl. apply in_seq in Hl. f_equal. unfold gain_matrix. unfold entry at 1. rewrite nth_map_seq by lia. rewrite nth_map_seq by lia. f_equal. unfold P. rewrite <- (Csum_prod (fun j k => (cf i l (j, k) * drawn cplx z a w j k)%C)). apply Csum_map_ext. intros j _. apply Csum_map_ext. intros k _. unfold cf, entry. cbn [fst snd]. ring. }
  rewrite (E_sum E HE (fun i w => Rsum (map (fun l => Cnorm2 (Csum (map (fun p => cf i l p * drawn cplx z a w (fst p) (snd p)) P) + entry mean i l)%C) (seq 0 tx)))).
  rewrite (Rsum_map_ext _ (fun i => Rsum (map (fun l => Cnorm2 (entry mean i l)) (seq 0 tx)) + Rsum (map (fun j => Cnorm2 (entry sr i j)) (seq 0 rx)) * re (diag_sum tx rt))%R).
  - rewrite Rsum_map_add. rewrite <- (energy_entries rx tx mean Hm). rewrite Rsum_mul_r, (root_energy rx rr sr Hr). cbn [Cmul re]. rewrite (root_real tx rt st Ht). ring.
  - intros i Hi. rewrite (E_sum E HE (fun l w => Cnorm2 (Csum (map (fun p => cf i l p * drawn cplx z a w (fst p) (snd p)) P) + entry mean i l)%C)).
    rewrite <- (root_energy tx rt st Ht). rewrite (Rsum_map_ext _ (fun l => Cnorm2 (entry mean i l) + Rsum (map (fun j => Cnorm2 (entry sr i j)) (seq 0 rx)) * Rsum (map (fun k => Cnorm2 (entry st l k)) (seq 0 tx)))%R); [rewrite Rsum_map_add, Rsum_map_mul; reflexivity|].
    intros l _. pose proof (entry_power E HE (fun x => z (fst x, (a, snd x))) (cf i l) P (entry mean i l) cplx) as Q. cbn [fst snd] in Q.
    rewrite (ex_ext E HE _ (fun w => Cnorm2 (Csum (map (fun p => cf i l p * (if cplx then Cscale (sqrt (1 / 2)) (mkC (z (true, (a, p)) w) (z (false, (a, p)) w)) else ofR (z (true, (a, p)) w)))%C P) + entry mean i l)%C)).
    + assert (IN : forall x, In x (list_prod [true; false] P) -> In (fst x, (a, snd x)) (list_prod [true; false] (list_prod [a] P))). { intros [c p] Hx. apply in_prod_iff in Hx as (X1 & X2). apply in_prod_iff. cbn [fst snd]. split; [exact X1|]. apply in_prod_iff. split; [left; reflexivity|exact X2]. }
      rewrite Q; [|destruct HW as (W1 & W2 & W3); split; [intros x Hx; apply W1, IN, Hx|split; [intros x Hx; apply W2, IN, Hx|intros [c p] [c' p'] Hx Hx' Hne; apply W3; [exact (IN _ Hx)|exact (IN _ Hx')|cbn [fst snd]; congruence]]]|apply NoDup_prod; apply seq_NoDup].
      f_equal. unfold P. rewrite <- (Rsum_prod (fun j k => Cnorm2 (cf i l (j, k)))). rewrite <- Rsum_mul_r. apply Rsum_map_ext. intros j _. rewrite <- Rsum_map_mul. apply Rsum_map_ext. intros k _. unfold cf. apply Cnorm2_mul.
    + intros w. do 3 f_equal. apply map_ext. intros (j, k). reflexivity.
Qed.

(* ---------------------------------------------------------------- propagation *)
Definition vect (tx : nat) (msg : list C) (a : nat) : list C := map (fun k => nth (a * tx + k) msg C0) (seq 0 tx).
Lemma slice_vect : forall tx (m : list C) a, ((a + 1) * tx <= length m)%nat -> slice m (a * tx) (a * tx + tx) = vect tx m a.
Proof.
  intros tx m a H. assert (H' : (a * tx + tx <= length m)%nat) by nia. clear H. apply (nth_ext _ _ C0 C0).
  - unfold vect. rewrite map_length, seq_length, slice_length by lia. lia.
  - intros k Hk. rewrite slice_length in Hk by lia. unfold vect. rewrite nth_map_seq by lia. rewrite slice_nth by lia. reflexivity.
Qed.
Lemma vect_pad : forall tx m k a, vect tx (m ++ repeat C0 k) a = vect tx m a.
Proof.
  intros tx m k a. unfold vect. apply map_ext. intros j. destruct (Nat.lt_ge_cases (a * tx + j) (length m)) as [H|H]; [rewrite app_nth1 by exact H; reflexivity|]. rewrite app_nth2 by exact H. rewrite nth_repeat. symmetry. apply nth_overflow. exact H.
Qed.
Lemma combine_same : forall {A B D} (f : A -> B) (g : A -> D) l, combine (map f l) (map g l) = map (fun x => (f x, g x)) l.
Proof. intros A B D f g l. induction l as [|x l IH]; [reflexivity|]. cbn [map combine]. rewrite IH. reflexivity. Qed.
Lemma ceil_eq : forall len t, (1 <= t)%nat -> (len / t + (if (len mod t =? 0)%nat then 0 else 1) = (len + t - 1) / t)%nat.
Proof.
  intros len t Ht. pose proof (Nat.div_mod len t ltac:(lia)) as D. pose proof (Nat.mod_upper_bound len t ltac:(lia)) as B. destruct (Nat.eqb_spec (len mod t) 0) as [Z|Z].
  - apply (Nat.div_unique _ _ _ (t - 1)); lia.
  - apply (Nat.div_unique _ _ _ (len mod t - 1)); lia.
Qed.
Section PROP.
  Variables (sqrtm : list (list C) -> list (list C) * bool) (ch : mimo) (msg : list C) (mc : bool) (n1 n2 : nat -> nat -> R) (g1 g2 : nat -> nat -> nat -> R).
  Let nv := ((length msg + t_nb ch - 1) / t_nb ch)%nat.
  Let draw (a j k : nat) : C := if m_complex ch then Cscale (sqrt (1 / 2)) (mkC (g1 a j k) (g2 a j k)) else ofR (g1 a j k).
  Definition gains_of (a : nat) : list (list C) := gain_matrix (r_nb ch) (t_nb ch) (fst (sqrtm (f_rr (m_fading ch)))) (fst (sqrtm (f_rt (m_fading ch)))) (m_rows (f_mean (m_fading ch))) (draw a).
  Definition unnoisy_of (a : nat) : list C := map (fun i => apply_row (nth i (gains_of a) []) (vect (t_nb ch) msg a)) (seq 0 (r_nb ch)).
  Lemma propagate_ok : forall s, msg <> [] -> (mc = true -> m_complex ch = true) -> (1 <= t_nb ch)%nat -> m_std ch = Some (Some s) ->
    (m_complex ch = false -> snd (sqrtm (f_rr (m_fading ch))) = false /\ snd (sqrtm (f_rt (m_fading ch))) = false) -> m_nan (f_mean (m_fading ch)) = false ->
    exists ch', mimo_propagate sqrtm ch msg mc n1 n2 g1 g2 = (ch', Ok (Num (map (fun a => map (fun i => (nth i (unnoisy_of a) C0 + noise (m_complex ch) s (n1 a i) (n2 a i))%C) (seq 0 (r_nb ch))) (seq 0 nv)))) /\
      m_gains ch' = Some (Num (map gains_of (seq 0 nv))) /\ m_unnoisy ch' = Some (Num (map unnoisy_of (seq 0 nv))) /\
      m_noises ch' = Some (Num (map (fun a => map (fun i => noise (m_complex ch) s (n1 a i) (n2 a i)) (seq 0 (r_nb ch))) (seq 0 nv))) /\
      t_nb ch' = t_nb ch /\ r_nb ch' = r_nb ch /\ m_fading ch' = m_fading ch /\ m_complex ch' = m_complex ch /\ m_std ch' = m_std ch.
  Proof.
    intros s Hne Hc Ht Hs Hcast Hnan. unfold mimo_propagate. assert (M : forall (A : Type) (x y : A), match msg with [] => x | _ :: _ => y end = y) by (intros; clear - Hne; destruct msg; [congruence|reflexivity]). rewrite M. clear M. assert (C1' : mc && negb (m_complex ch) = false) by (destruct mc; [rewrite Hc by reflexivity; reflexivity|reflexivity]). rewrite C1'. destruct (Nat.eqb_spec (t_nb ch) 0) as [?|_]; [lia|]. rewrite Hs, ceil_eq by exact Ht. fold nv.
    unfold gains_of in *. destruct (sqrtm (f_rr (m_fading ch))) as [sr sc] eqn:Er. destruct (sqrtm (f_rt (m_fading ch))) as [st tc] eqn:Et. cbn [fst snd] in Hcast.
    assert (C2 : negb (m_complex ch) && (sc || tc) = false) by (destruct (m_complex ch); [reflexivity|destruct (Hcast eq_refl) as (-> & ->); reflexivity]). rewrite C2, Hnan.
    set (msg' := if (length msg mod t_nb ch =? 0)%nat then msg else msg ++ repeat C0 (t_nb ch - length msg mod t_nb ch)).
    assert (HL : length msg' = (nv * t_nb ch)%nat). { pose proof (Nat.div_mod (length msg) (t_nb ch) ltac:(lia)). pose proof (Nat.mod_upper_bound (length msg) (t_nb ch) ltac:(lia)). unfold nv. rewrite <- ceil_eq by exact Ht. unfold msg'. destruct (Nat.eqb_spec (length msg mod t_nb ch) 0); [nia|]. rewrite app_length, repeat_length. nia. }
    assert (HV : map (fun a => slice msg' (a * t_nb ch) (a * t_nb ch + t_nb ch)) (seq 0 nv) = map (vect (t_nb ch) msg) (seq 0 nv)).
    { apply map_ext_in. intros a Ha. apply in_seq in Ha. rewrite slice_vect by (rewrite HL; nia). unfold msg'. destruct (length msg mod t_nb ch =? 0)%nat; [reflexivity|apply vect_pad]. }
    rewrite HV. rewrite combine_same, map_map. cbn [fst snd].
    assert (HU : map (fun x => map (fun row => dotC row (vect (t_nb ch) msg x)) (gain_matrix (r_nb ch) (t_nb ch) sr st (m_rows (f_mean (m_fading ch))) (draw x))) (seq 0 nv) = map unnoisy_of (seq 0 nv)).
    { apply map_ext_in. intros a Ha. unfold unnoisy_of, gains_of. rewrite Er, Et. cbn [fst]. set (G := gain_matrix _ _ _ _ _ _). pose proof (gain_shape (r_nb ch) (t_nb ch) sr st (m_rows (f_mean (m_fading ch))) (draw a)) as (G1 & G2). fold G in G1, G2. rewrite <- (map_nth_seq_id G []) at 1. rewrite map_map, G1. apply map_ext_in. intros i Hi. apply in_seq in Hi. apply dotC_apply. rewrite Forall_forall in G2. rewrite G2 by (apply nth_In; lia). unfold vect. rewrite map_length, seq_length. reflexivity. }
    unfold draw in HU. rewrite HU. match goal with |- exists ch', (?X, _) = _ /\ _ => exists X end. split; [|cbn [m_gains m_unnoisy m_noises t_nb r_nb m_fading m_complex m_std]; repeat split; reflexivity]. f_equal. f_equal. f_equal. rewrite combine_same, map_map. apply map_ext. intros a. cbn [fst snd]. unfold unnoisy_of at 1. rewrite combine_same, map_map. apply map_ext_in. intros i Hi. apply in_seq in Hi. cbn [fst snd]. unfold unnoisy_of. rewrite nth_map_seq by lia. reflexivity.
  Qed.
End PROP.
