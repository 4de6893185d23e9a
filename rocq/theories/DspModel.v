(* Model of /repo/commpy/filters.py, /repo/commpy/impairments.py and of zcsequence (/repo/commpy/sequences.py 76-112).
   Numbers are exact reals / complex numbers; None is a sample that is inf or nan. *)
From Coq Require Import QArith.
From Verif Require Import Base Cplx.
Close Scope Q_scope.
Open Scope R_scope.

(* division of numpy floats: a zero divisor gives inf or nan, with a warning *)
Definition np_div (a b : R) : option R := if Req_EM_T b 0 then None else Some (a / b).
Definition opt2 (f : R -> R -> R) (a b : option R) : option R := match a, b with Some x, Some y => Some (f x y) | _, _ => None end.

(* filters.py 51-52 (also 99-100, 150-151, 183-184): T_delta = 1/float(Fs) raises ZeroDivisionError; time_idx *)
Definition time_of (N : nat) (Fs : R) (x : nat) : R := (INR x - INR N / 2) * (1 / Fs).
Definition with_times {A} (N : nat) (Fs : R) (h : R -> A) : res (list R * list A) :=
  if Req_EM_T Fs 0 then Err ZeroDivisionError
  else Ok (map (time_of N Fs) (seq 0 N), map (fun x => h (time_of N Fs x)) (seq 0 N)).

(* filters.py 64-66: a quotient by Ts = 0 is inf or nan, as a quotient by the parenthesis *)
Definition sinc_part (t Ts : R) : option R :=
  match np_div (PI * t) Ts with None => None | Some u => np_div (sin u) u end.
Definition rcos_general (alpha Ts t : R) : option R :=
  match np_div (PI * alpha * t) Ts, np_div (2 * alpha * t) Ts with
  | Some a, Some w => opt2 Rmult (sinc_part t Ts) (np_div (cos a) (1 - w * w))
  | _, _ => None
  end.
(* filters.py 58-66: one sample *)
Definition rcos_sample (alpha Ts t : R) : option R :=
  if Req_EM_T t 0 then Some 1
  else if Req_EM_T alpha 0 then rcos_general alpha Ts t
  else if Req_EM_T t (Ts / (2 * alpha)) then match sinc_part t Ts with None => None | Some s => Some (PI / 4 * s) end
  else if Req_EM_T t (- Ts / (2 * alpha)) then match sinc_part t Ts with None => None | Some s => Some (PI / 4 * s) end
  else rcos_general alpha Ts t.
(* filters.py 51-68 *)
Definition rcosfilter (N : nat) (alpha Ts Fs : R) : res (list R * list (option R)) := with_times N Fs (rcos_sample alpha Ts).

(* filters.py 108-111, 113-114: the value at t = Ts/(4 alpha) and -Ts/(4 alpha) *)
Definition rrcos_special (alpha : R) : R :=
  alpha / sqrt 2 * ((1 + 2 / PI) * sin (PI / (4 * alpha)) + (1 - 2 / PI) * cos (PI / (4 * alpha))).
(* filters.py 116-118 *)
Definition rrcos_general (alpha Ts t : R) : option R :=
  match np_div (PI * t * (1 - alpha)) Ts, np_div t Ts, np_div (PI * t * (1 + alpha)) Ts, np_div (4 * alpha * t) Ts with
  | Some a, Some u, Some b, Some w =>
      match np_div (PI * t * (1 - w * w)) Ts with None => None | Some d => np_div (sin a + 4 * alpha * u * cos b) d end
  | _, _, _, _ => None
  end.
(* filters.py 106-118 *)
Definition rrcos_sample (alpha Ts t : R) : option R :=
  if Req_EM_T t 0 then Some (1 - alpha + 4 * alpha / PI)
  else if Req_EM_T alpha 0 then rrcos_general alpha Ts t
  else if Req_EM_T t (Ts / (4 * alpha)) then Some (rrcos_special alpha)
  else if Req_EM_T t (- Ts / (4 * alpha)) then Some (rrcos_special alpha)
  else rrcos_general alpha Ts t.
(* filters.py 99-120 *)
Definition rrcosfilter (N : nat) (alpha Ts Fs : R) : res (list R * list (option R)) := with_times N Fs (rrcos_sample alpha Ts).

(* filters.py 150-154 *)
Definition gaussian_sample (alpha t : R) : option R :=
  match np_div (sqrt PI) alpha, np_div (PI * t) alpha with
  | Some k, Some u => Some (k * exp (- (u * u)))
  | _, _ => None
  end.
Definition gaussianfilter (N : nat) (alpha Fs : R) : res (list R * list (option R)) := with_times N Fs (gaussian_sample alpha).
(* filters.py 182-186 *)
Definition rectfilter (N : nat) (Fs : R) : res (list R * list R) := with_times N Fs (fun _ => 1).

(* impairments.py 41-42; delta_f / Fs are Python floats *)
Definition add_frequency_offset (waveform : list C) (Fs delta_f : R) : res (list C) :=
  if Req_EM_T Fs 0 then Err ZeroDivisionError
  else Ok (map (fun p => (snd p * cis (2 * PI * (delta_f / Fs) * INR (fst p)))%C) (combine (seq 0 (length waveform)) waveform)).

(* sequences.py 98-112: an argument is a Python int or a float (a rational number) *)
Inductive pynum := PyInt (z : Z) | PyFloat (q : Q).
(* float(el).is_integer() *)
Definition is_integer (x : pynum) : bool := match x with PyInt _ => true | PyFloat q => Pos.eqb (Qden (Qred q)) 1 end.
(* the value of an argument that passed the test *)
Definition int_value (x : pynum) : Z := match x with PyInt z => z | PyFloat q => Qnum (Qred q) end.
Definition is_float (x : pynum) : bool := match x with PyFloat _ => true | _ => false end.
(* np.gcd rejects floats with TypeError.  The exponent is -j pi u n (n + cf + 2q) / seq_length *)
Definition zc_sample (u N q : Z) (n : nat) : C :=
  cis (- (PI * IZR u * INR n * (INR n + IZR (N mod 2) + 2 * IZR q) / IZR N)).
Definition zcsequence (u seq_length q : pynum) : res (list C) :=
  if negb (is_integer u) then Err ValueError else if negb (is_integer seq_length) then Err ValueError else if negb (is_integer q) then Err ValueError
  else
    let u' := int_value u in let N := int_value seq_length in
    if (u' <=? 0)%Z then Err ValueError
    else if (N <=? u')%Z then Err ValueError
    else if is_float u || is_float seq_length then Err TypeError
    else if negb (Z.gcd u' N =? 1)%Z then Err ValueError
    else Ok (map (zc_sample u' N (int_value q)) (seq 0 (Z.to_nat N))).
