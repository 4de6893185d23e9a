(* Continuity of the pulse shapes; metric lemmas. *)
From Verif Require Import Base Cplx DspModel.
Open Scope R_scope.

(* ---------------------------------------------------------------- quotients with removable singularities *)
Lemma regular_point : forall F f g x, continuity_pt f x -> continuity_pt g x -> g x <> 0 -> (forall y, g y <> 0 -> F y = f y / g y) -> continuity_pt F x.
Proof.
  intros F f g x Cf Cg Hg HF. pose proof (continuity_pt_div f g x Cf Cg Hg) as Cq. intros eps He. destruct (Cq eps He) as (a & Ha & Pa). destruct (Cg (Rabs (g x)) (Rabs_pos_lt _ Hg)) as (b & Hb & Pb).
  exists (Rmin a b). split; [apply Rmin_pos; assumption|]. intros y (Dy & Hy). assert (Gy : g y <> 0).
  { intros E. specialize (Pb y (conj Dy (Rlt_le_trans _ _ _ Hy (Rmin_r a b)))). cbn in Pb. unfold R_dist in Pb. rewrite E, Rminus_0_l, Rabs_Ropp in Pb. lra. }
  specialize (Pa y (conj Dy (Rlt_le_trans _ _ _ Hy (Rmin_l a b)))). rewrite (HF y Gy), (HF x Hg). exact Pa.
Qed.
Lemma removable_point : forall F f g x l m, derivable_pt_lim f x l -> derivable_pt_lim g x m -> f x = 0 -> g x = 0 -> m <> 0 -> F x = l / m -> (forall y, g y <> 0 -> F y = f y / g y) -> continuity_pt F x.
Proof.
  intros F f g x l m Df Dg Ef Eg Hm EF HF.
  assert (Lf : limit1_in (fun h => (f (x + h) - f x) / h) (fun h => h <> 0) l 0).
  { intros eps He. destruct (Df eps He) as (d & Hd). exists d. split; [apply cond_pos|]. intros h (H1 & H2). cbn in H2 |- *. unfold R_dist in *. rewrite Rminus_0_r in H2. apply Hd; assumption. }
  assert (Lg : limit1_in (fun h => (g (x + h) - g x) / h) (fun h => h <> 0) m 0).
  { intros eps He. destruct (Dg eps He) as (d & Hd). exists d. split; [apply cond_pos|]. intros h (H1 & H2). cbn in H2 |- *. unfold R_dist in *. rewrite Rminus_0_r in H2. apply Hd; assumption. }
  pose proof (limit_mul _ _ _ _ _ _ Lf (limit_inv _ _ _ _ Lg Hm)) as L. intros eps He. destruct (L eps He) as (a & Ha & Pa). destruct (Lg (Rabs m) (Rabs_pos_lt _ Hm)) as (b & Hb & Pb).
  exists (Rmin a b). split; [apply Rmin_pos; assumption|]. intros y ((_ & Dy) & Hy). cbn in Hy |- *. unfold R_dist in *. set (h := y - x) in *. assert (Hh : h <> 0) by (unfold h; lra).
  assert (X : x + h = y) by (unfold h; ring). assert (Ba : Rabs h < a) by (eapply Rlt_le_trans; [exact Hy|apply Rmin_l]). assert (Bb : Rabs h < b) by (eapply Rlt_le_trans; [exact Hy|apply Rmin_r]).
  specialize (Pa h). specialize (Pb h). cbn in Pa, Pb. unfold R_dist in Pa, Pb. rewrite Rminus_0_r in Pa, Pb. specialize (Pa (conj Hh Ba)). specialize (Pb (conj Hh Bb)). rewrite X, Ef, Eg, !Rminus_0_r in Pa. rewrite X, Eg, Rminus_0_r in Pb.
  assert (Gy : g y <> 0). { intros E. rewrite E in Pb. unfold Rdiv in Pb. rewrite Rmult_0_l, Rminus_0_l, Rabs_Ropp in Pb. lra. }
  rewrite EF, (HF y Gy). replace (f y / g y) with (f y / h * / (g y / h)) by (field; split; assumption). exact Pa.
Qed.
Lemma even_continuity : forall F x, (forall y, F (- y) = F y) -> continuity_pt F x -> continuity_pt F (- x).
Proof.
  intros F x H Cx eps He. destruct (Cx eps He) as (a & Ha & Pa). exists a. split; [exact Ha|]. intros y ((_ & Dy) & Hy). rewrite H, <- (H y). apply Pa. split; [split; [exact I|lra]|]. cbn in *. unfold R_dist in *. replace (- y - x) with (- (y - - x)) by ring. rewrite Rabs_Ropp. exact Hy.
Qed.

(* ---------------------------------------------------------------- derivatives *)
Lemma d_lin : forall a x, derivable_pt_lim (fun u => a * u) x a.
Proof. intros a x. pose proof (derivable_pt_lim_scal id a x 1 (derivable_pt_lim_id x)) as H. rewrite Rmult_1_r in H. exact H. Qed.
Lemma d_sin : forall a x, derivable_pt_lim (fun u => sin (a * u)) x (a * cos (a * x)).
Proof. intros a x. rewrite Rmult_comm. apply (derivable_pt_lim_comp (fun u => a * u) sin); [apply d_lin|apply derivable_pt_lim_sin]. Qed.
Lemma d_cos : forall a x, derivable_pt_lim (fun u => cos (a * u)) x (- (a * sin (a * x))).
Proof. intros a x. replace (- (a * sin (a * x))) with (- sin (a * x) * a) by ring. apply (derivable_pt_lim_comp (fun u => a * u) cos); [apply d_lin|apply derivable_pt_lim_cos]. Qed.
Lemma d_eq : forall f x l l', derivable_pt_lim f x l -> l = l' -> derivable_pt_lim f x l'.
Proof. intros f x l l' H <-. exact H. Qed.
Lemma d_cont : forall f x l, derivable_pt_lim f x l -> continuity_pt f x.
Proof. intros f x l H. apply derivable_continuous_pt. exists l. exact H. Qed.

(* ---------------------------------------------------------------- sin u / u and cos(pi w / 2) / (1 - w^2) *)
Definition sinc0 (u : R) : R := if Req_EM_T u 0 then 1 else sin u / u.
Lemma sinc0_even : forall u, sinc0 (- u) = sinc0 u.
Proof. intros u. unfold sinc0. destruct (Req_EM_T (- u) 0), (Req_EM_T u 0); try lra. rewrite sin_neg. field. assumption. Qed.
Lemma sinc0_cont : forall u, continuity_pt sinc0 u.
Proof.
  intros u. assert (HF : forall y, id y <> 0 -> sinc0 y = sin y / id y) by (unfold id, sinc0; intros y Hy; destruct (Req_EM_T y 0); [contradiction|reflexivity]).
  destruct (Req_EM_T u 0) as [->|Hu].
  - apply (removable_point sinc0 sin id 0 (cos 0) 1); [apply derivable_pt_lim_sin|apply derivable_pt_lim_id|apply sin_0|reflexivity|lra|unfold sinc0; destruct (Req_EM_T 0 0); [rewrite cos_0; field|lra]|exact HF].
  - apply (regular_point sinc0 sin id u); [apply (d_cont _ _ _ (derivable_pt_lim_sin u))|apply (d_cont _ _ _ (derivable_pt_lim_id u))|exact Hu|exact HF].
Qed.
Definition roll (w : R) : R := if Req_EM_T (1 - w * w) 0 then PI / 4 else cos (PI / 2 * w) / (1 - w * w).
Lemma roll_even : forall w, roll (- w) = roll w.
Proof. intros w. unfold roll. replace (- w * - w) with (w * w) by ring. replace (PI / 2 * - w) with (- (PI / 2 * w)) by ring. rewrite cos_neg. reflexivity. Qed.
Lemma d_sq : forall x, derivable_pt_lim (fun w => 1 - w * w) x (- (2 * x)).
Proof.
  intros x. apply (d_eq _ _ (0 - (1 * x + x * 1))); [|ring]. apply (derivable_pt_lim_minus (fct_cte 1) (fun w => w * w)); [apply derivable_pt_lim_const|]. apply (derivable_pt_lim_mult id id); apply derivable_pt_lim_id.
Qed.
Lemma roll_cont : forall w, continuity_pt roll w.
Proof.
  assert (HF : forall y, 1 - y * y <> 0 -> roll y = cos (PI / 2 * y) / (1 - y * y)) by (intros y Hy; unfold roll; destruct (Req_EM_T _ 0); [contradiction|reflexivity]).
  assert (H1 : continuity_pt roll 1).
  { apply (removable_point roll (fun w => cos (PI / 2 * w)) (fun w => 1 - w * w) 1 (- (PI / 2 * sin (PI / 2 * 1))) (- (2 * 1))); [apply d_cos|apply d_sq|rewrite Rmult_1_r; apply cos_PI2|ring|lra| |exact HF].
    unfold roll. destruct (Req_EM_T _ 0); [|lra]. rewrite Rmult_1_r, sin_PI2. field. }
  intros w. destruct (Req_EM_T (1 - w * w) 0) as [E|E].
  - assert (w = 1 \/ w = - (1)) as [-> | ->]; [|exact H1|apply even_continuity; [apply roll_even|exact H1]]. assert (P : (1 - w) * (1 + w) = 0) by lra. apply Rmult_integral in P as [P|P]; [left|right]; lra.
  - apply (regular_point roll (fun w => cos (PI / 2 * w)) (fun w => 1 - w * w) w); [apply (d_cont _ _ _ (d_cos _ _))|apply (d_cont _ _ _ (d_sq _))|exact E|exact HF].
Qed.

(* ---------------------------------------------------------------- raised cosine *)
Definition rc (alpha Ts t : R) : R := sinc0 (PI * t / Ts) * roll (2 * alpha * t / Ts).
Lemma np_div_some : forall a b, b <> 0 -> np_div a b = Some (a / b).
Proof. intros a b H. unfold np_div. destruct (Req_EM_T b 0); [contradiction|reflexivity]. Qed.
Lemma sinc_some : forall t Ts, Ts <> 0 -> t <> 0 -> sinc_part t Ts = Some (sinc0 (PI * t / Ts)).
Proof.
  intros t Ts H1 H2. assert (Hpi := PI_RGT_0). unfold sinc_part. rewrite np_div_some by exact H1. assert (N : PI * t / Ts <> 0). { unfold Rdiv. apply Rmult_integral_contrapositive. split; [apply Rmult_integral_contrapositive; split; lra|apply Rinv_neq_0_compat, H1]. }
  rewrite np_div_some by exact N. unfold sinc0. destruct (Req_EM_T _ 0); [contradiction|reflexivity].
Qed.
Lemma rcos_general_some : forall alpha Ts t, Ts <> 0 -> t <> 0 -> 1 - (2 * alpha * t / Ts) * (2 * alpha * t / Ts) <> 0 -> rcos_general alpha Ts t = Some (rc alpha Ts t).
Proof.
  intros alpha Ts t H1 H2 H3. unfold rcos_general. rewrite !np_div_some by assumption. rewrite sinc_some by assumption. cbn [opt2]. unfold rc, roll. destruct (Req_EM_T _ 0); [contradiction|]. do 4 f_equal. field. exact H1.
Qed.
Lemma rcos_some : forall alpha Ts t, Ts <> 0 -> rcos_sample alpha Ts t = Some (rc alpha Ts t).
Proof.
  intros alpha Ts t HT. unfold rcos_sample. destruct (Req_EM_T t 0) as [->|Ht].
  - unfold rc, sinc0, roll. replace (PI * 0 / Ts) with 0 by (field; exact HT). replace (2 * alpha * 0 / Ts) with 0 by (field; exact HT). destruct (Req_EM_T 0 0); [|lra]. destruct (Req_EM_T _ 0); [lra|]. rewrite Rmult_0_r, cos_0. f_equal. field.
  - destruct (Req_EM_T alpha 0) as [->|Ha]; [apply rcos_general_some; try assumption; replace (2 * 0 * t / Ts) with 0 by (field; exact HT); lra|].
    assert (S : forall w, (2 * alpha * t / Ts) = w -> w = 1 \/ w = -1 -> match sinc_part t Ts with Some s => Some (PI / 4 * s) | None => None end = Some (rc alpha Ts t)).
    { intros w E Hw. rewrite sinc_some by assumption. unfold rc, roll. rewrite E. destruct (Req_EM_T (1 - w * w) 0); [f_equal; ring|]. exfalso. apply n. destruct Hw as [Z|Z]; rewrite Z; ring. }
    destruct (Req_EM_T t (Ts / (2 * alpha))) as [E|E]; [apply (S 1); [rewrite E; field; split; assumption|left; reflexivity]|].
    destruct (Req_EM_T t (- Ts / (2 * alpha))) as [E'|E']; [apply (S (-1)); [rewrite E'; field; split; assumption|right; reflexivity]|].
    apply rcos_general_some; try assumption. intros Z. set (w := 2 * alpha * t / Ts) in *. assert (T : t = w * (Ts / (2 * alpha))) by (unfold w; field; split; assumption). assert (P : (1 - w) * (1 + w) = 0) by lra. apply Rmult_integral in P as [P|P]; [apply E|apply E']; rewrite T; [replace w with 1 by lra|replace w with (-1) by lra]; field; assumption.
Qed.
Lemma scaled_cont : forall F a t, (forall x, continuity_pt F x) -> continuity_pt (fun t => F (a * t)) t.
Proof. intros F a t H. apply (continuity_pt_comp (fun t => a * t) F); [apply (d_cont _ _ _ (d_lin a t))|apply H]. Qed.
Lemma rc_cont : forall alpha Ts, Ts <> 0 -> continuity (rc alpha Ts).
Proof.
  intros alpha Ts HT t. assert (E : forall F a b, (forall y, F y = a y * b y) -> continuity_pt a t -> continuity_pt b t -> continuity_pt F t).
  { intros F a b H Ca Cb. intros eps He. destruct (continuity_pt_mult a b t Ca Cb eps He) as (d & Hd & P). exists d. split; [exact Hd|]. intros y Hy. specialize (P y Hy). rewrite !H. exact P. }
  apply (E _ (fun t => sinc0 (PI / Ts * t)) (fun t => roll (2 * alpha / Ts * t))).
  - intros y. unfold rc. f_equal; f_equal; field; exact HT.
  - apply scaled_cont, sinc0_cont.
  - apply scaled_cont, roll_cont.
Qed.
Lemma sin_kpi : forall k : Z, sin (PI * IZR k) = 0.
Proof. intros k. apply sin_eq_0_1. exists k. ring. Qed.
Lemma rc_nyquist : forall alpha Ts k, Ts <> 0 -> (k <> 0)%Z -> rc alpha Ts (IZR k * Ts) = 0.
Proof.
  intros alpha Ts k HT Hk. assert (Hpi := PI_RGT_0). unfold rc, sinc0. replace (PI * (IZR k * Ts) / Ts) with (PI * IZR k) by (field; exact HT). rewrite sin_kpi. destruct (Req_EM_T _ 0) as [E|E]; [|unfold Rdiv; ring]. exfalso. apply Rmult_integral in E as [E|E]; [lra|]. apply eq_IZR in E. contradiction.
Qed.

(* ---------------------------------------------------------------- root raised cosine *)
Section Rrc.
Variable alpha : R.
Let rf (u : R) := sin (PI * (1 - alpha) * u) + 4 * alpha * u * cos (PI * (1 + alpha) * u).
Let rg (u : R) := PI * u * (1 - 4 * alpha * u * (4 * alpha * u)).
Definition rrc (u : R) : R :=
  if Req_EM_T u 0 then 1 - alpha + 4 * alpha / PI
  else if Req_EM_T (1 - 4 * alpha * u * (4 * alpha * u)) 0 then rrcos_special alpha
  else (sin (PI * (1 - alpha) * u) + 4 * alpha * u * cos (PI * (1 + alpha) * u)) / (PI * u * (1 - 4 * alpha * u * (4 * alpha * u))).
Lemma rrc_form : forall u, rg u <> 0 -> rrc u = rf u / rg u.
Proof.
  intros u H. unfold rrc. destruct (Req_EM_T u 0) as [->|_]; [exfalso; apply H; unfold rg; ring|]. destruct (Req_EM_T _ 0) as [E|_]; [exfalso; apply H; unfold rg; rewrite E; ring|]. reflexivity.
Qed.
Lemma rrc_even : forall u, rrc (- u) = rrc u.
Proof.
  intros u. assert (Hpi := PI_RGT_0). unfold rrc. replace (4 * alpha * - u * (4 * alpha * - u)) with (4 * alpha * u * (4 * alpha * u)) by ring. destruct (Req_EM_T (- u) 0), (Req_EM_T u 0); try lra. destruct (Req_EM_T _ 0); [reflexivity|].
  replace (PI * (1 - alpha) * - u) with (- (PI * (1 - alpha) * u)) by ring. replace (PI * (1 + alpha) * - u) with (- (PI * (1 + alpha) * u)) by ring. rewrite sin_neg, cos_neg. field. repeat split; lra.
Qed.
Lemma rf_d : forall u, derivable_pt_lim rf u (PI * (1 - alpha) * cos (PI * (1 - alpha) * u) + (4 * alpha * cos (PI * (1 + alpha) * u) + 4 * alpha * u * - (PI * (1 + alpha) * sin (PI * (1 + alpha) * u)))).
Proof.
  intros u. apply (derivable_pt_lim_plus (fun u => sin (PI * (1 - alpha) * u)) (fun u => 4 * alpha * u * cos (PI * (1 + alpha) * u))); [apply d_sin|]. apply (derivable_pt_lim_mult (fun u => 4 * alpha * u) (fun u => cos (PI * (1 + alpha) * u))); [apply d_lin|apply d_cos].
Qed.
Lemma rg_d : forall u, derivable_pt_lim rg u (PI * (1 - 4 * alpha * u * (4 * alpha * u)) + PI * u * (0 - (4 * alpha * (4 * alpha * u) + 4 * alpha * u * (4 * alpha)))).
Proof.
  intros u. apply (derivable_pt_lim_mult (fun u => PI * u) (fun u => 1 - 4 * alpha * u * (4 * alpha * u))); [apply d_lin|]. apply (derivable_pt_lim_minus (fct_cte 1) (fun u => 4 * alpha * u * (4 * alpha * u))); [apply derivable_pt_lim_const|]. apply (derivable_pt_lim_mult (fun u => 4 * alpha * u) (fun u => 4 * alpha * u)); apply d_lin.
Qed.
Lemma rrc_cont0 : continuity_pt rrc 0.
Proof.
  assert (Hpi := PI_RGT_0). apply (removable_point rrc rf rg 0 _ _ (rf_d 0) (rg_d 0)).
  - unfold rf. rewrite !Rmult_0_r, sin_0. ring.
  - unfold rg. ring.
  - rewrite !Rmult_0_r. lra.
  - unfold rrc. destruct (Req_EM_T 0 0); [|lra]. rewrite !Rmult_0_r, cos_0. field. lra.
  - apply rrc_form.
Qed.
Lemma rrc_cont1 : alpha <> 0 -> continuity_pt rrc (1 / (4 * alpha)).
Proof.
  intros Ha. assert (Hpi := PI_RGT_0). set (u := 1 / (4 * alpha)). assert (U : 4 * alpha * u = 1) by (unfold u; field; exact Ha). assert (U0 : u <> 0) by (intros E; rewrite E in U; lra).
  assert (S2 : sqrt 2 <> 0) by (apply Rgt_not_eq, sqrt_lt_R0; lra). assert (Q : sqrt 2 * sqrt 2 = 2) by (apply sqrt_sqrt; lra).
  assert (A1 : PI * (1 - alpha) * u = PI / (4 * alpha) - PI / 4) by (unfold u; field; exact Ha). assert (A2 : PI * (1 + alpha) * u = PI / (4 * alpha) + PI / 4) by (unfold u; field; exact Ha).
  apply (removable_point rrc rf rg u _ _ (rf_d u) (rg_d u)).
  - unfold rf. rewrite U, A1, A2, sin_minus, cos_plus, sin_PI4, cos_PI4. field. exact S2.
  - unfold rg. rewrite U. ring.
  - rewrite U. replace (PI * u * (0 - (4 * alpha * 1 + 1 * (4 * alpha)))) with (- (2 * PI) * (4 * alpha * u)) by ring. rewrite U. lra.
  - unfold rrc. destruct (Req_EM_T u 0); [contradiction|]. rewrite U. destruct (Req_EM_T _ 0); [|lra]. rewrite A1, A2, cos_minus, cos_plus, sin_plus, sin_PI4, cos_PI4. unfold rrcos_special. replace (PI * u * (0 - (4 * alpha * 1 + 1 * (4 * alpha)))) with (- (2 * PI) * (4 * alpha * u)) by ring. rewrite U. field. repeat split; try exact S2; try exact Ha; lra.
  - apply rrc_form.
Qed.
Lemma rrc_cont : forall u, continuity_pt rrc u.
Proof.
  intros u. assert (Hpi := PI_RGT_0). destruct (Req_EM_T (rg u) 0) as [E|E].
  - unfold rg in E. apply Rmult_integral in E as [E|E].
    + apply Rmult_integral in E as [E|E]; [lra|]. rewrite E. apply rrc_cont0.
    + assert (P : (1 - 4 * alpha * u) * (1 + 4 * alpha * u) = 0) by lra. assert (Ha : alpha <> 0) by (intros Z; rewrite Z in P; lra).
      apply Rmult_integral in P as [P|P]; [replace u with (1 / (4 * alpha)) by (replace 1 with (4 * alpha * u) by lra; field; exact Ha); apply rrc_cont1, Ha|].
      replace u with (- (1 / (4 * alpha))) by (replace 1 with (- (4 * alpha * u)) by lra; field; exact Ha). apply even_continuity; [exact rrc_even|apply rrc_cont1, Ha].
  - apply (regular_point rrc rf rg u); [apply (d_cont _ _ _ (rf_d u))|apply (d_cont _ _ _ (rg_d u))|exact E|apply rrc_form].
Qed.
Lemma rrcos_some : forall Ts t, Ts <> 0 -> rrcos_sample alpha Ts t = Some (rrc (t / Ts)).
Proof.
  intros Ts t HT. assert (Hpi := PI_RGT_0). unfold rrcos_sample, rrc. destruct (Req_EM_T t 0) as [->|Ht]; [replace (0 / Ts) with 0 by (field; exact HT); destruct (Req_EM_T 0 0); [reflexivity|lra]|].
  set (u := t / Ts). assert (T : t = u * Ts) by (unfold u; field; exact HT). destruct (Req_EM_T u 0) as [Z|Hu]; [exfalso; apply Ht; rewrite T, Z; ring|].
  assert (G : 1 - 4 * alpha * u * (4 * alpha * u) <> 0 -> rrcos_general alpha Ts t = Some ((sin (PI * (1 - alpha) * u) + 4 * alpha * u * cos (PI * (1 + alpha) * u)) / (PI * u * (1 - 4 * alpha * u * (4 * alpha * u))))).
  { intros Hw. unfold rrcos_general. rewrite !np_div_some by exact HT. replace (4 * alpha * t / Ts) with (4 * alpha * u) by (rewrite T; field; exact HT). replace (PI * t * (1 - 4 * alpha * u * (4 * alpha * u)) / Ts) with (PI * u * (1 - 4 * alpha * u * (4 * alpha * u))) by (rewrite T; field; exact HT).
    rewrite np_div_some by (apply Rmult_integral_contrapositive; split; [apply Rmult_integral_contrapositive; split; lra|exact Hw]). fold u. replace (PI * t * (1 - alpha) / Ts) with (PI * (1 - alpha) * u) by (rewrite T; field; exact HT). replace (PI * t * (1 + alpha) / Ts) with (PI * (1 + alpha) * u) by (rewrite T; field; exact HT). reflexivity. }
  destruct (Req_EM_T alpha 0) as [Ha|Ha]; [rewrite G by (rewrite Ha; lra); destruct (Req_EM_T _ 0) as [E|_]; [exfalso; rewrite Ha in E; lra|reflexivity]|].
  destruct (Req_EM_T t (Ts / (4 * alpha))) as [E|E].
  { assert (U : 4 * alpha * u = 1) by (unfold u; rewrite E; field; split; assumption). destruct (Req_EM_T _ 0) as [_|F]; [reflexivity|rewrite U in F; lra]. }
  destruct (Req_EM_T t (- Ts / (4 * alpha))) as [E'|E'].
  { assert (U : 4 * alpha * u = -1) by (unfold u; rewrite E'; field; split; assumption). destruct (Req_EM_T _ 0) as [_|F]; [reflexivity|rewrite U in F; lra]. }
  destruct (Req_EM_T _ 0) as [Z|Z]; [|apply G, Z]. exfalso. assert (P : (1 - 4 * alpha * u) * (1 + 4 * alpha * u) = 0) by lra. apply Rmult_integral in P as [P|P]; [apply E|apply E']; rewrite T.
  - assert (u = 1 / (4 * alpha)) as -> by (replace 1 with (4 * alpha * u) by lra; field; exact Ha). field. exact Ha.
  - assert (u = - 1 / (4 * alpha)) as -> by (replace (- 1) with (4 * alpha * u) by lra; field; exact Ha). field. exact Ha.
Qed.
End Rrc.

(* ---------------------------------------------------------------- Euclidean distance *)
Definition sq_sum (l : list R) : R := Rsum (map (fun x => x * x) l).
Definition prod_sum (a b : list R) : R := Rsum (map (fun p => fst p * snd p) (combine a b)).
Lemma sq_sum_nonneg : forall l, 0 <= sq_sum l.
Proof. intros l. apply Rsum_nonneg. intros x Hx. apply in_map_iff in Hx as (y & <- & _). nra. Qed.
Lemma cauchy : forall a b, length a = length b -> prod_sum a b * prod_sum a b <= sq_sum a * sq_sum b.
Proof.
  induction a as [|x a IH]; intros [|y b] HL; try discriminate; [unfold prod_sum, sq_sum; cbn; lra|]. injection HL as HL. specialize (IH b HL). unfold prod_sum, sq_sum in *. cbn [combine map Rsum fold_right fst snd]. fold (Rsum (map (fun p => fst p * snd p) (combine a b))) (Rsum (map (fun x => x * x) a)) (Rsum (map (fun x => x * x) b)).
  pose proof (sq_sum_nonneg a) as PA. pose proof (sq_sum_nonneg b) as PB. unfold sq_sum in PA, PB. set (P := Rsum (map _ (combine a b))) in *. set (X := Rsum (map _ a)) in *. set (Y := Rsum (map _ b)) in *.
  assert (H : 2 * P * x * y <= X * (y * y) + Y * (x * x)).
  { assert (N : 0 <= X * (y * y) + Y * (x * x)) by nra. apply Rnot_lt_le. intros L. assert (S : (X * (y * y) + Y * (x * x)) * (X * (y * y) + Y * (x * x)) < 2 * P * x * y * (2 * P * x * y)) by nra.
    assert (E : (X * (y * y) - Y * (x * x)) * (X * (y * y) - Y * (x * x)) + 4 * ((X * Y - P * P) * (x * y * (x * y))) < 0) by nra. assert (0 <= (X * Y - P * P) * (x * y * (x * y))) by (apply Rmult_le_pos; [lra|apply Rle_0_sqr]). pose proof (Rle_0_sqr (X * (y * y) - Y * (x * x))) as SQ. unfold Rsqr in SQ. lra. }
  nra.
Qed.
