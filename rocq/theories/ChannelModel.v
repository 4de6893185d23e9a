(* Model of /repo/commpy/channels.py.  Numbers are exact reals / complex numbers; the draws of numpy's random generators are
   parameters.  The Python type test isinstance(x, complex) is a boolean carried with the values. *)
From Verif Require Import Base Cplx ModemModel MimoModel.
Open Scope Z_scope.

(* ---------------------------------------------------------------- bec, bsc: 630-672 *)
(* Arrays live in a memory; an array is named by its position.  copy() makes a new array. *)
Definition memory := list (list Z).
(* 647-649.  random(len) <= p_e selects the entries set to -1; [draws] are the values returned by random *)
Definition bec (mem : memory) (input_bits : nat) (p_e : R) (draws : list R) : memory * nat :=
  let output := length mem in
  let mem1 := mem ++ [nth input_bits mem []] in
  (upd mem1 output (map (fun bu => if Rle_dec (snd bu) p_e then -1 else fst bu) (combine (nth output mem1 []) draws)), output).
(* 669-672 *)
Definition bsc (mem : memory) (input_bits : nat) (p_t : R) (draws : list R) : memory * nat :=
  let output := length mem in
  let mem1 := mem ++ [nth input_bits mem []] in
  let flip_locs := map (fun u => if Rle_dec u p_t then true else false) draws in
  (upd mem1 output (map (fun bf : Z * bool => if snd bf then Z.lxor 1 (fst bf) else fst bf) (combine (nth output mem1 []) flip_locs)), output).

(* ---------------------------------------------------------------- noise level: 37-93 *)
(* noise_std: None before it is set; Some None is NaN (square root of a negative number) *)
Definition std := option (option R).
Definition np_sqrt (x : R) : option R := if Rlt_dec x 0 then None else Some (sqrt x).
(* 93 and 74; the arguments are Python floats: division by zero raises *)
Definition snr_lin (isComplex : bool) (nb_tx : nat) (SNR_lin code_rate Es : R) : res std :=
  if Req_EM_T (code_rate * SNR_lin)%R 0 then Err ZeroDivisionError
  else Ok (Some (np_sqrt (((if isComplex then 1 else 0) + 1) * INR nb_tx * Es / (code_rate * SNR_lin)))).
Definition snr_dB (isComplex : bool) (nb_tx : nat) (SNR_dB code_rate Es : R) : res std :=
  if Req_EM_T (code_rate * Rpower 10 (SNR_dB / 10)) 0 then Err ZeroDivisionError
  else Ok (Some (np_sqrt (((if isComplex then 1 else 0) + 1) * INR nb_tx * Es / (code_rate * Rpower 10 (SNR_dB / 10))))).
(* 49-55: one noise sample from the draws a (and b) *)
Definition noise (isComplex : bool) (s a b : R) : C :=
  if isComplex then Cscale (1 / 2) (Cscale s (mkC a b)) else ofR (a * s).

(* an array whose entries are numbers, or all NaN *)
Inductive nums (A : Type) := Num (a : A) | NaNs.
Arguments Num {A}. Arguments NaNs {A}.

(* ---------------------------------------------------------------- SISOFlatChannel: 101-239 *)
(* fading_param: (mean, whether the mean is a complex, variance) *)
Definition siso_param := (C * bool * R)%type.
Record siso := { s_std : std; s_fading : siso_param; s_complex : bool;
                 s_noises : option (nums (list C)); s_gains : option (nums (list C)); s_unnoisy : option (nums (list C)) }.
(* 229-234 the setter *)
Definition siso_set (ch : siso) (f : siso_param) : siso * res unit :=
  let '(mean, cplx, var) := f in
  if Req_EM_T (var + Cabs mean * Cabs mean) 1
  then ({| s_std := s_std ch; s_fading := f; s_complex := cplx; s_noises := s_noises ch; s_gains := s_gains ch; s_unnoisy := s_unnoisy ch |}, Ok tt)
  else (ch, Err ValueError).
(* 176-179 the constructor; the defaults are noise_std=None, fading_param=(1, 0) *)
Definition siso_init (noise_std : option R) (f : siso_param) : res siso :=
  let st := match noise_std with None => None | Some s => Some (Some s) end in
  let blank := {| s_std := st; s_fading := (C0, false, 0%R); s_complex := false; s_noises := None; s_gains := None; s_unnoisy := None |} in
  match siso_set blank f with (ch, Ok _) => Ok ch | (_, Err e) => Err e end.
(* 236-239 k_factor; division of numpy floats *)
Definition siso_k (ch : siso) : ext := let '(mean, _, var) := s_fading ch in ext_div (Fin (Cabs mean * Cabs mean)) (Rabs var).
(* 205-221 propagate.  The draws: noise (n1, n2), gains (g1, g2), indexed by the position in the message; msg is a list with
   its type; msg[0] of an empty message raises IndexError. *)
Definition siso_gain (isComplex : bool) (mean : C) (var_root : R) (a b : R) : C :=
  (mean + (if isComplex then Cscale var_root (mkC a b) else ofR (a * var_root)))%C.
Definition siso_propagate (ch : siso) (msg : list C) (msg_complex : bool) (n1 n2 g1 g2 : nat -> R) : siso * res (nums (list C)) :=
  match msg with
  | [] => (ch, Err IndexError)
  | _ =>
    if msg_complex && negb (s_complex ch) then (ch, Err TypeError)
    else match s_std ch with
    | None => (ch, Err AssertionError)
    | Some sd =>
        let ix := seq 0 (length msg) in
        let noises := match sd with None => NaNs | Some s => Num (map (fun i => noise (s_complex ch) s (n1 i) (n2 i)) ix) end in
        let '(mean, _, var) := s_fading ch in
        let gains := match np_sqrt (if s_complex ch then 1 / 2 * var else var) with
                     | None => NaNs
                     | Some q => Num (map (fun i => siso_gain (s_complex ch) mean q (g1 i) (g2 i)) ix) end in
        let unnoisy := match gains with NaNs => NaNs | Num g => Num (map (fun p => (fst p * snd p)%C) (combine g msg)) end in
        let out := match unnoisy, noises with Num u, Num w => Num (map (fun p => (fst p + snd p)%C) (combine u w)) | _, _ => NaNs end in
        ({| s_std := s_std ch; s_fading := s_fading ch; s_complex := s_complex ch; s_noises := Some noises; s_gains := Some gains; s_unnoisy := Some unnoisy |}, Ok out)
    end
  end.

(* what a program can do with a SISO channel *)
Inductive siso_op :=
  | SFading (f : siso_param) | SStd (s : option R) | SSnrLin (snr rate es : R) | SSnrDB (snr rate es : R)
  | SPropagate (msg : list C) (cplx : bool) (n1 n2 g1 g2 : nat -> R).
Definition siso_with_std (ch : siso) (s : std) : siso :=
  {| s_std := s; s_fading := s_fading ch; s_complex := s_complex ch; s_noises := s_noises ch; s_gains := s_gains ch; s_unnoisy := s_unnoisy ch |}.
Definition siso_do (ch : siso) (o : siso_op) : siso * res unit :=
  match o with
  | SFading f => siso_set ch f
  | SStd s => (siso_with_std ch (match s with None => None | Some x => Some (Some x) end), Ok tt)
  | SSnrLin snr rate es => match snr_lin (s_complex ch) 1 snr rate es with Ok s => (siso_with_std ch s, Ok tt) | Err e => (ch, Err e) end
  | SSnrDB snr rate es => match snr_dB (s_complex ch) 1 snr rate es with Ok s => (siso_with_std ch s, Ok tt) | Err e => (ch, Err e) end
  | SPropagate msg cplx n1 n2 g1 g2 => let '(ch', r) := siso_propagate ch msg cplx n1 n2 g1 g2 in (ch', match r with Ok _ => Ok tt | Err e => Err e end)
  end.

(* ---------------------------------------------------------------- MIMOFlatChannel: 242-627 *)
(* a matrix as the list of its rows, with its type; all entries are NaN if m_nan *)
Record fmat := { m_rows : list (list C); m_cplx : bool; m_nan : bool }.
Record fading := { f_mean : fmat; f_rt : list (list C); f_rr : list (list C) }.
Definition np_transpose (m : list (list C)) : list (list C) := map (column m) (seq 0 (length (hd [] m))).
Definition np_kron (a b : list (list C)) : list (list C) :=
  flat_map (fun ra => map (fun rb => flat_map (fun x => map (fun z => (x * z)%C) rb) ra) b) a.
Definition np_trace (m : list (list C)) : C := Csum (map (fun i => nth i (nth i m []) C0) (seq 0 (length m))).
(* einsum('ij,ij->', absolute(m), absolute(m)) *)
Definition abs2_sum (m : list (list C)) : R := Rsum (map (fun row => Rsum (map (fun z => (Cabs z * Cabs z)%R) row)) m).
Definition nlos (f : fading) : C := np_trace (np_kron (np_transpose (f_rt f)) (f_rr f)).
Definition los (f : fading) : R := abs2_sum (m_rows (f_mean f)).

Record mimo := { t_nb : nat; r_nb : nat; m_std : std; m_fading : fading; m_complex : bool;
                 m_noises : option (nums (list (list C))); m_gains : option (nums (list (list (list C)))); m_unnoisy : option (nums (list (list C))) }.
Definition mimo_with (ch : mimo) (f : fading) (cplx : bool) : mimo :=
  {| t_nb := t_nb ch; r_nb := r_nb ch; m_std := m_std ch; m_fading := f; m_complex := cplx; m_noises := m_noises ch; m_gains := m_gains ch; m_unnoisy := m_unnoisy ch |}.
(* 461-468 the setter.  A comparison with NaN is False.  fading_param[0][0, 0] raises IndexError for an empty mean, after
   _fading_param has been replaced. *)
Definition mimo_set (ch : mimo) (f : fading) : mimo * res unit :=
  let bad := negb (m_nan (f_mean f)) &&
             (if Rlt_dec (1 / 1000) (Cabs (nlos f + ofR (los f) - ofR (INR (t_nb ch) * INR (r_nb ch)))%C) then true else false) in
  if bad then (ch, Err ValueError)
  else match m_rows (f_mean f) with
  | (_ :: _) :: _ => (mimo_with ch f (m_cplx (f_mean f)), Ok tt)
  | _ => (mimo_with ch f (m_complex ch), Err IndexError)
  end.
(* 323-324, 485: numpy's zeros and identity *)
(* 471-475 k_factor, for a mean without NaN: the complex quotient los / nlos *)
Definition Crecip (a : C) : C := mkC (re a / Cnorm2 a) (- im a / Cnorm2 a).
Definition mimo_k (ch : mimo) : C := (ofR (los (m_fading ch)) * Crecip (nlos (m_fading ch)))%C.
Definition zeros (rows cols : nat) : list (list C) := repeat (repeat C0 cols) rows.
Definition identity (n : nat) : list (list C) := map (fun i => map (fun j => if (i =? j)%nat then C1 else C0) (seq 0 n)) (seq 0 n).
Definition plain (m : list (list C)) (cplx : bool) : fmat := {| m_rows := m; m_cplx := cplx; m_nan := false |}.
(* 318-327 the constructor *)
Definition mimo_init (nb_tx nb_rx : nat) (noise_std : option R) (f : option fading) : res mimo :=
  let rayleigh := {| f_mean := plain (zeros nb_rx nb_tx) false; f_rt := identity nb_tx; f_rr := identity nb_rx |} in
  let blank := {| t_nb := nb_tx; r_nb := nb_rx; m_std := match noise_std with None => None | Some s => Some (Some s) end;
                  m_fading := rayleigh; m_complex := false; m_noises := None; m_gains := None; m_unnoisy := None |} in
  match mimo_set blank (match f with None => rayleigh | Some f' => f' end) with (ch, Ok _) => Ok ch | (_, Err e) => Err e end.

(* z ** e for an integer e.  z = 0 with e < 0 (numpy: inf or nan) is not modelled faithfully: the value here is 0. *)
Fixpoint Cpow (z : C) (n : nat) : C := match n with O => C1 | S n' => (z * Cpow z n')%C end.
Definition CpowZ (z : C) (e : Z) : C := if 0 <=? e then Cpow z (Z.to_nat e) else Cpow (Crecip z) (Z.to_nat (- e)).
(* t ** expo with expo[i][j] = j - i: 528-537, 615-624 *)
Definition expo_matrix (n : nat) (z : C) : list (list C) := map (fun i => map (fun j => CpowZ z (Z.of_nat j - Z.of_nat i)) (seq 0 n)) (seq 0 n).
Definition mat_scale (x : R) (m : list (list C)) : list (list C) := map (map (Cscale x)) m.
(* 408-409: row n, column m *)
Definition decay (nb : nat) (beta : R) : list (list C) :=
  map (fun n => map (fun m => ofR (exp (- beta * Rabs (INR m - INR n)))) (seq 0 nb)) (seq 0 nb).
(* elementwise product of matrices of the same shape *)
Definition mat_mul_elt (a b : list (list C)) : list (list C) := map (fun p => map (fun q => (fst q * snd q)%C) (combine (fst p) (snd p))) (combine a b).
(* 404-412 *)
Definition update_KBSM (ch : mimo) (betat betar : R) : mimo * res unit :=
  if (if Rlt_dec betar 0 then true else false) || (if Rlt_dec betat 0 then true else false) then (ch, Err ValueError)
  else mimo_set ch {| f_mean := f_mean (m_fading ch); f_rt := mat_mul_elt (f_rt (m_fading ch)) (decay (t_nb ch) betat); f_rr := mat_mul_elt (f_rr (m_fading ch)) (decay (r_nb ch) betar) |}.
Definition too_big (z : C) : bool := if Rlt_dec (1 / 10000) (Cabs z - 1) then true else false.
(* statement after statement; an exception stops *)
Definition then_do (r : mimo * res unit) (k : mimo -> mimo * res unit) : mimo * res unit :=
  match r with (ch, Ok _) => k ch | (ch, Err e) => (ch, Err e) end.
(* 477-485 *)
Definition uncorr_rayleigh (ch : mimo) (complex_dtype : bool) : mimo * res unit :=
  mimo_set ch {| f_mean := plain (zeros (r_nb ch) (t_nb ch)) complex_dtype; f_rt := identity (t_nb ch); f_rr := identity (r_nb ch) |}.
(* 522-540; t, r complex or float (an int with a negative exponent raises ValueError in numpy: not modelled) *)
Definition expo_rayleigh (ch : mimo) (t r : C) (betat betar : R) : mimo * res unit :=
  if too_big t then (ch, Err ValueError) else if too_big r then (ch, Err ValueError)
  else then_do (mimo_set ch {| f_mean := plain (zeros (r_nb ch) (t_nb ch)) true; f_rt := expo_matrix (t_nb ch) t; f_rr := expo_matrix (r_nb ch) r |})
               (fun ch' => update_KBSM ch' betat betar).
(* 555-557 and 611-613: NLOS_gain and the scaled mean; k_factor a Python float.  NaN if the mean is zero or the quotient negative *)
Definition mat_size (m : list (list C)) : nat := (length m * length (hd [] m))%nat.
Definition scaled_mean (mean : fmat) (k : R) (nl : R) : fmat :=
  let q := (k * nl / abs2_sum (m_rows mean))%R in
  if Req_EM_T (abs2_sum (m_rows mean)) 0 then {| m_rows := m_rows mean; m_cplx := m_cplx mean; m_nan := true |}
  else match np_sqrt q with
       | None => {| m_rows := m_rows mean; m_cplx := m_cplx mean; m_nan := true |}
       | Some s => {| m_rows := mat_scale s (m_rows mean); m_cplx := m_cplx mean; m_nan := m_nan mean |}
       end.
(* 555-558 *)
Definition uncorr_rician (ch : mimo) (mean : fmat) (k : R) : mimo * res unit :=
  if Req_EM_T (k + 1) 0 then (ch, Err ZeroDivisionError)
  else
    let nb := INR (mat_size (m_rows mean)) in
    let nl := (nb / (k + 1))%R in
    mimo_set ch {| f_mean := scaled_mean mean k nl; f_rt := mat_scale (nl / nb) (identity (t_nb ch)); f_rr := identity (r_nb ch) |}.
(* 604-627 *)
Definition expo_rician (ch : mimo) (mean : fmat) (k : R) (t r : C) (betat betar : R) : mimo * res unit :=
  if too_big t then (ch, Err ValueError) else if too_big r then (ch, Err ValueError)
  else if Req_EM_T (k + 1) 0 then (ch, Err ZeroDivisionError)
  else
    let nb := INR (mat_size (m_rows mean)) in
    let nl := (nb / (k + 1))%R in
    then_do (mimo_set ch {| f_mean := scaled_mean mean k nl; f_rt := mat_scale (nl / nb) (expo_matrix (t_nb ch) t); f_rr := expo_matrix (r_nb ch) r |})
            (fun ch' => update_KBSM ch' betat betar).
(* 447-453 *)
Definition specular_compo (ch : mimo) (thetat dt thetar dr : R) : res (list (list C)) :=
  if (if Rlt_dec dr 0 then true else false) || (if Rlt_dec dt 0 then true else false) then Err ValueError
  else Ok (map (fun n => map (fun m => cis (2 * PI * (INR n * dr * cos thetar + INR m * dt * cos thetat))) (seq 0 (t_nb ch))) (seq 0 (r_nb ch))).

(* 354-383 propagate.  [sqrtm]: scipy's matrix square root with the type of its result.  Draws: noise n1, n2 (vector, rx),
   gains g1, g2 (vector, rx, tx).  Matrices of the documented shapes; the einsum of a real channel with complex roots raises
   TypeError when it stores its result.  The padding is zeros. *)
Definition gain_matrix (rx tx : nat) (sr st mean : list (list C)) (g : nat -> nat -> C) : list (list C) :=
  map (fun i => map (fun l =>
      (Csum (map (fun j => Csum (map (fun k => (nth j (nth i sr []) C0 * g j k * nth k (nth l st []) C0)%C) (seq 0 tx))) (seq 0 rx))
       + nth l (nth i mean []) C0)%C) (seq 0 tx)) (seq 0 rx).
Definition mimo_propagate (sqrtm : list (list C) -> list (list C) * bool) (ch : mimo) (msg : list C) (msg_complex : bool)
                          (n1 n2 : nat -> nat -> R) (g1 g2 : nat -> nat -> nat -> R) : mimo * res (nums (list (list C))) :=
  match msg with
  | [] => (ch, Err IndexError)
  | _ =>
    if msg_complex && negb (m_complex ch) then (ch, Err TypeError)
    else if (t_nb ch =? 0)%nat then (ch, Err ZeroDivisionError)
    else
      let rest := (length msg mod t_nb ch)%nat in
      let nb_vect := (length msg / t_nb ch + (if (rest =? 0)%nat then 0 else 1))%nat in
      let msg' := if (rest =? 0)%nat then msg else msg ++ repeat C0 (t_nb ch - rest) in
      let vects := map (fun a => slice msg' (a * t_nb ch) (a * t_nb ch + t_nb ch)) (seq 0 nb_vect) in
      match m_std ch with
      | None => (ch, Err AssertionError)
      | Some sd =>
          let noises := match sd with None => NaNs | Some s => Num (map (fun a => map (fun i => noise (m_complex ch) s (n1 a i) (n2 a i)) (seq 0 (r_nb ch))) (seq 0 nb_vect)) end in
          let '(sr, sr_c) := sqrtm (f_rr (m_fading ch)) in
          let '(st, st_c) := sqrtm (f_rt (m_fading ch)) in
          let draw a j k := if m_complex ch then Cscale (sqrt (1 / 2)) (mkC (g1 a j k) (g2 a j k)) else ofR (g1 a j k) in
          let raw := Num (map (fun a => map (fun j => map (draw a j) (seq 0 (t_nb ch))) (seq 0 (r_nb ch))) (seq 0 nb_vect)) in
          let put g u := {| t_nb := t_nb ch; r_nb := r_nb ch; m_std := m_std ch; m_fading := m_fading ch; m_complex := m_complex ch; m_noises := Some noises; m_gains := Some g; m_unnoisy := u |} in
          if negb (m_complex ch) && (sr_c || st_c) then (put raw (m_unnoisy ch), Err TypeError)
          else if m_nan (f_mean (m_fading ch)) then (put NaNs (Some NaNs), Ok NaNs)
          else
            let gains := map (fun a => gain_matrix (r_nb ch) (t_nb ch) sr st (m_rows (f_mean (m_fading ch))) (draw a)) (seq 0 nb_vect) in
            let unnoisy := map (fun p => map (fun row => dotC row (snd p)) (fst p)) (combine gains vects) in
            let out := match noises with
                       | NaNs => NaNs
                       | Num w => Num (map (fun p => map (fun q => (fst q + snd q)%C) (combine (fst p) (snd p))) (combine unnoisy w)) end in
            (put (Num gains) (Some (Num unnoisy)), Ok out)
      end
  end.

(* what a program can do with a MIMO channel, apart from changing nb_tx and nb_rx *)
Inductive mimo_op :=
  | MFading (f : fading) | MStd (s : option R) | MSnrLin (snr rate es : R) | MSnrDB (snr rate es : R)
  | MRayleigh (cplx : bool) | MExpoRayleigh (t r : C) (betat betar : R) | MRician (mean : fmat) (k : R) | MExpoRician (mean : fmat) (k : R) (t r : C) (betat betar : R)
  | MPropagate (sqrtm : list (list C) -> list (list C) * bool) (msg : list C) (cplx : bool) (n1 n2 : nat -> nat -> R) (g1 g2 : nat -> nat -> nat -> R).
Definition mimo_with_std (ch : mimo) (s : std) : mimo :=
  {| t_nb := t_nb ch; r_nb := r_nb ch; m_std := s; m_fading := m_fading ch; m_complex := m_complex ch; m_noises := m_noises ch; m_gains := m_gains ch; m_unnoisy := m_unnoisy ch |}.
Definition mimo_do (ch : mimo) (o : mimo_op) : mimo * res unit :=
  match o with
  | MFading f => mimo_set ch f
  | MStd s => (mimo_with_std ch (match s with None => None | Some x => Some (Some x) end), Ok tt)
  | MSnrLin snr rate es => match snr_lin (m_complex ch) (t_nb ch) snr rate es with Ok s => (mimo_with_std ch s, Ok tt) | Err e => (ch, Err e) end
  | MSnrDB snr rate es => match snr_dB (m_complex ch) (t_nb ch) snr rate es with Ok s => (mimo_with_std ch s, Ok tt) | Err e => (ch, Err e) end
  | MRayleigh c => uncorr_rayleigh ch c
  | MExpoRayleigh t r bt br => expo_rayleigh ch t r bt br
  | MRician mean k => uncorr_rician ch mean k
  | MExpoRician mean k t r bt br => expo_rician ch mean k t r bt br
  | MPropagate sq msg c n1 n2 g1 g2 => let '(ch', r) := mimo_propagate sq ch msg c n1 n2 g1 g2 in (ch', match r with Ok _ => Ok tt | Err e => Err e end)
  end.

(* ---------------------------------------------------------------- awgn: 697-708 *)
(* randn draws a (and b); rate * snr_linear = 0 raises ZeroDivisionError only for Python floats: here avg_energy is a numpy
   float, so the result is inf or nan; that case is NaNs here (no theorem uses it).  An empty signal raises IndexError. *)
Definition awgn (signal : list C) (cplx : bool) (snr_dB rate : R) (a b : nat -> R) : res (nums (list C)) :=
  match signal with
  | [] => Err IndexError
  | _ =>
    let avg_energy := (Rsum (map (fun s => Cabs s * Cabs s)%R signal) / INR (length signal))%R in
    let snr_linear := Rpower 10 (snr_dB / 10) in
    if Req_EM_T (2 * rate * snr_linear) 0 then Ok NaNs
    else
      let noise_variance := (avg_energy / (2 * rate * snr_linear))%R in
      Ok (match np_sqrt (if cplx then noise_variance else 2 * noise_variance) with
          | None => NaNs
          | Some q => Num (map (fun p => (snd p + (if cplx then ofR (q * a (fst p)) + Cscale (q * b (fst p)) Ci else ofR (q * a (fst p))))%C)
                               (combine (seq 0 (length signal)) signal)) end)
  end.
