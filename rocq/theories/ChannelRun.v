(* Channels: expectations, propagation, histories. *)
From Verif Require Import Base UtilModel UtilProofs Cplx ModemModel ModemProofs MimoModel MimoSpec MimoProofs ChannelModel ChannelSpec ChannelProofs ChannelFading ChannelCorr.
Open Scope Z_scope.

Lemma NoDup_app_intro : forall {A} (l l' : list A), NoDup l -> NoDup l' -> (forall x, In x l -> In x l' -> False) -> NoDup (l ++ l').
Proof.
  intros A l l' H H' D. induction H as [|x l Hx H IH]; [exact H'|]. cbn [app]. constructor; [|apply IH; intros y Hy; apply D; right; exact Hy]. intros F. apply in_app_or in F as [F|F]; [contradiction|]. apply (D x); [left; reflexivity|exact F].
Qed.
(* ---------------------------------------------------------------- expectation *)
Section EXP.
  Context {W : Type} (E : (W -> R) -> R) (HE : expectation E).
  Lemma E_const : forall k, E (fun _ => k) = k.
  Proof. intros k. rewrite (ex_ext E HE _ (fun w => k * (fun _ : W => 1) w)%R) by (intros; ring). rewrite (ex_mul E HE), (ex_one E HE). ring. Qed.
  Lemma E_sum : forall {A} (f : A -> W -> R) l, E (fun w => Rsum (map (fun a => f a w) l)) = Rsum (map (fun a => E (f a)) l).
  Proof.
    intros A f l. induction l as [|a l IH]; [exact (E_const 0)|]. cbn [map]. unfold Rsum in *. cbn [fold_right]. rewrite <- IH. exact (ex_add E HE (f a) (fun w => fold_right Rplus 0%R (map (fun x => f x w) l))).
  Qed.
  Lemma E_lin2 : forall a b f g, E (fun w => a * f w + b * g w)%R = (a * E f + b * E g)%R.
  Proof. intros a b f g. rewrite (ex_add E HE (fun w => a * f w)%R (fun w => b * g w)%R), !(ex_mul E HE). reflexivity. Qed.
  (* second moment of an affine form in white draws *)
  Lemma second_moment : forall {I} (z : I -> W -> R) (alpha : I -> R) (l : list I) (m : R), white E l z -> NoDup l ->
    E (fun w => (m + Rsum (map (fun i => alpha i * z i w) l)) * (m + Rsum (map (fun i => alpha i * z i w) l)))%R = (m * m + Rsum (map (fun i => alpha i * alpha i) l))%R.
  Proof.
    intros I z alpha l m HW ND. revert HW. induction ND as [|i l Hi ND IH]; intros (W1 & W2 & W3).
    - cbn. rewrite (ex_ext E HE _ (fun _ => m * m)%R) by (intros; ring). rewrite E_const. ring.
    - assert (W' : white E l z) by (split; [intros j Hj; apply W1; right; exact Hj|split; [intros j Hj; apply W2; right; exact Hj|intros j j' Hj Hj'; apply W3; right; assumption]]). specialize (IH W'). clear W'.
      set (L := fun w => (m + Rsum (map (fun i => alpha i * z i w) l))%R) in *. rewrite (ex_ext E HE _ (fun w => 1 * (L w * L w) + 1 * (alpha i * alpha i * (z i w * z i w) + 2 * alpha i * (m * z i w + Rsum (map (fun j => alpha j * (z i w * z j w)) l))))%R).
      2:{ intros w. unfold L. cbn [map]. unfold Rsum. cbn [fold_right]. fold (Rsum (map (fun i0 => (alpha i0 * z i0 w)%R) l)). fold (Rsum (map (fun j => (alpha j * (z i w * z j w))%R) l)).
          replace (Rsum (map (fun j => (alpha j * (z i w * z j w))%R) l)) with (z i w * Rsum (map (fun i0 => alpha i0 * z i0 w) l))%R by (rewrite <- Rsum_map_mul; apply Rsum_map_ext; intros; ring). ring. }
      rewrite E_lin2. rewrite E_lin2. rewrite (ex_add E HE (fun w => m * z i w)%R (fun w => Rsum (map (fun j => alpha j * (z i w * z j w)) l))%R). rewrite (ex_mul E HE), (W1 i) by (left; reflexivity). rewrite (E_sum (fun j w => alpha j * (z i w * z j w))%R). unfold L in *. rewrite IH, (W2 i) by (left; reflexivity).
      rewrite (Rsum_map_ext (fun j => E (fun w => alpha j * (z i w * z j w))%R) (fun _ => 0%R)). 2:{ intros j Hj. rewrite (ex_mul E HE). rewrite W3; [ring|left; reflexivity|right; exact Hj|]. intros ->. contradiction. }
      rewrite Rsum_const. cbn [map]. unfold Rsum. cbn [fold_right]. ring.
  Qed.
  Lemma noise_power : forall c s (a b : W -> R), E (fun w => a w * a w)%R = 1%R -> E (fun w => b w * b w)%R = 1%R -> E (fun w => Cnorm2 (noise c s (a w) (b w))) = (if c then s * s / 2 else s * s)%R.
  Proof.
    intros c s a b Ha Hb. destruct c.
    - rewrite (ex_ext E HE _ (fun w => s * s / 4 * (a w * a w) + s * s / 4 * (b w * b w))%R) by (intros w; unfold noise, Cnorm2, Cscale; cbn [re im]; field). rewrite E_lin2, Ha, Hb. field.
    - rewrite (ex_ext E HE _ (fun w => s * s * (a w * a w))%R) by (intros w; unfold noise, Cnorm2, ofR; cbn [re im]; ring). rewrite (ex_mul E HE), Ha. ring.
  Qed.
  Lemma gain_power : forall c mean q (a b : W -> R), E a = 0%R -> E b = 0%R -> E (fun w => a w * a w)%R = 1%R -> E (fun w => b w * b w)%R = 1%R ->
    E (fun w => Cnorm2 (siso_gain c mean q (a w) (b w))) = (Cnorm2 mean + (if c then 2 else 1) * (q * q))%R.
  Proof.
    intros c mean q a b A1 B1 A2 B2. destruct c.
    - rewrite (ex_ext E HE _ (fun w => 1 * (1 * (Cnorm2 mean) + (2 * q * re mean) * a w) + 1 * ((2 * q * im mean) * b w + q * q * (a w * a w + b w * b w)))%R) by (intros w; unfold siso_gain, Cnorm2, Cscale, Cadd; cbn [re im]; ring).
      rewrite E_lin2, (E_lin2 1 (2 * q * re mean) (fun _ => Cnorm2 mean) a), (E_lin2 (2 * q * im mean) (q * q) b (fun w => a w * a w + b w * b w)%R). rewrite (ex_add E HE (fun w => a w * a w)%R (fun w => b w * b w)%R), E_const, A1, B1, A2, B2. ring.
    - rewrite (ex_ext E HE _ (fun w => 1 * (1 * (Cnorm2 mean) + (2 * q * re mean) * a w) + q * q * (a w * a w))%R) by (intros w; unfold siso_gain, Cnorm2, ofR, Cadd; cbn [re im]; ring).
      rewrite E_lin2, (E_lin2 1 (2 * q * re mean) (fun _ => Cnorm2 mean) a), E_const, A1, A2. ring.
  Qed.
  (* one entry of a MIMO gain matrix: m + sum of c_p g_p *)
  Lemma entry_power : forall {P} (z : bool * P -> W -> R) (cf : P -> C) (l : list P) (m : C) (cplx : bool), white E (list_prod [true; false] l) z -> NoDup l ->
    E (fun w => Cnorm2 (Csum (map (fun p => cf p * (if cplx then Cscale (sqrt (1 / 2)) (mkC (z (true, p) w) (z (false, p) w)) else ofR (z (true, p) w)))%C l) + m)%C) = (Cnorm2 m + Rsum (map (fun p => Cnorm2 (cf p)) l))%R.
  Proof.
    intros P z cf l m cplx HW ND. set (s := sqrt (1 / 2)). assert (Hs : (s * s = 1 / 2)%R) by (apply sqrt_sqrt; lra).
    set (L2 := map (fun p => (true, p)) l ++ map (fun p => (false, p)) l). assert (ND2 : NoDup L2).
    { unfold L2. apply NoDup_app_intro.
      - apply FinFun.Injective_map_NoDup; [|exact ND]. intros x y H. injection H. auto.
      - apply FinFun.Injective_map_NoDup; [|exact ND]. intros x y H. injection H. auto.
      - intros x H1 H2. apply in_map_iff in H1 as (p & <- & _). apply in_map_iff in H2 as (p' & H2 & _). discriminate. }
    assert (HW2 : white E L2 z). { replace L2 with (list_prod [true; false] l) by (unfold L2; cbn [list_prod]; rewrite app_nil_r; reflexivity). exact HW. }
    set (ar := fun x : bool * P => let (c, p) := x in if cplx then (if c then s * re (cf p) else - (s * im (cf p)))%R else (if c then re (cf p) else 0%R)).
    set (ai := fun x : bool * P => let (c, p) := x in if cplx then (if c then s * im (cf p) else s * re (cf p))%R else (if c then im (cf p) else 0%R)).
    rewrite (ex_ext E HE _ (fun w => 1 * ((re m + Rsum (map (fun i => ar i * z i w) L2)) * (re m + Rsum (map (fun i => ar i * z i w) L2))) + 1 * ((im m + Rsum (map (fun i => ai i * z i w) L2)) * (im m + Rsum (map (fun i => ai i * z i w) L2))))%R).
    - rewrite E_lin2, !second_moment by assumption. unfold L2. rewrite !map_app, !Rsum_app, !map_map. unfold ar, ai. unfold Cnorm2 at 1. destruct cplx.
      + rewrite (Rsum_map_ext (fun p => Cnorm2 (cf p)) (fun p => 2 * (s * re (cf p) * (s * re (cf p))) + 2 * (s * im (cf p) * (s * im (cf p))))%R).
        2:{ intros p _. unfold Cnorm2. replace (s * re (cf p) * (s * re (cf p)))%R with (s * s * (re (cf p) * re (cf p)))%R by ring. replace (s * im (cf p) * (s * im (cf p)))%R with (s * s * (im (cf p) * im (cf p)))%R by ring. rewrite Hs. field. }
        rewrite Rsum_map_add, !Rsum_map_mul. rewrite (Rsum_map_ext (fun x => (- (s * im (cf x)) * - (s * im (cf x)))%R) (fun x => (s * im (cf x) * (s * im (cf x)))%R)) by (intros; ring). ring.
      + rewrite (Rsum_map_ext (fun p => Cnorm2 (cf p)) (fun p => re (cf p) * re (cf p) + im (cf p) * im (cf p))%R) by (intros; reflexivity). rewrite Rsum_map_add. rewrite (Rsum_map_ext (fun _ => (0 * 0)%R) (fun _ => 0%R)) by (intros; ring). rewrite !Rsum_const. ring.
    - intros w. unfold Cnorm2. cbn [Cadd re im]. rewrite Csum_re, Csum_im, !map_map. unfold L2. rewrite !map_app, !Rsum_app, !map_map. unfold ar, ai.
      assert (R1 : Rsum (map (fun p => re (cf p * (if cplx then Cscale s (mkC (z (true, p) w) (z (false, p) w)) else ofR (z (true, p) w)))%C) l) =
        (Rsum (map (fun p => (if cplx then s * re (cf p) else re (cf p)) * z (true, p) w) l) + Rsum (map (fun p => (if cplx then - (s * im (cf p)) else 0) * z (false, p) w) l))%R) by (rewrite <- Rsum_map_add; apply Rsum_map_ext; intros p _; destruct cplx; cbn; ring).
      assert (R2 : Rsum (map (fun p => im (cf p * (if cplx then Cscale s (mkC (z (true, p) w) (z (false, p) w)) else ofR (z (true, p) w)))%C) l) =
        (Rsum (map (fun p => (if cplx then s * im (cf p) else im (cf p)) * z (true, p) w) l) + Rsum (map (fun p => (if cplx then s * re (cf p) else 0) * z (false, p) w) l))%R) by (rewrite <- Rsum_map_add; apply Rsum_map_ext; intros p _; destruct cplx; cbn; ring).
      rewrite R1, R2. ring.
  Qed.
End EXP.
