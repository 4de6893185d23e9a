(* Vocabulary of the property C76. *)
From Verif Require Import Base Cplx ModemModel MimoModel MimoSpec ChannelModel UncodedLinkModel.
Open Scope Z_scope.

(* the channel matrix drawn for vector a of transmission t: Rr^(1/2) G (Rt^(1/2))^T + mean, the entries of G being (g1 + j g2) / sqrt 2 *)
Definition drawn_matrix (dr : mimo_draws) (sqrtm : list (list C) -> list (list C) * bool) (ch : mimo) (t a : nat) : list (list C) :=
  let sr := fst (sqrtm (f_rr (m_fading ch))) in let st := fst (sqrtm (f_rt (m_fading ch))) in
  map (fun i => map (fun l =>
      (Csum (map (fun j => Csum (map (fun k =>
           (nth j (nth i sr []) C0 * Cscale (sqrt (1 / 2)) (mkC (u_g1 dr t a j k) (u_g2 dr t a j k)) * nth k (nth l st []) C0)%C) (seq 0 (t_nb ch)))) (seq 0 (r_nb ch)))
       + nth l (nth i (m_rows (f_mean (m_fading ch))) []) C0)%C) (seq 0 (t_nb ch))) (seq 0 (r_nb ch)).
(* the noise on antenna i of vector a of transmission t for a noise standard deviation s, and the energy of the noise vector *)
Definition drawn_noise (dr : mimo_draws) (s : R) (t a i : nat) : C := Cscale (s / 2) (mkC (u_n1 dr t a i) (u_n2 dr t a i)).
Definition noise_energy (dr : mimo_draws) (ch : mimo) (s : R) (t a : nat) : R := Rsum (map (fun i => Cnorm2 (drawn_noise dr s t a i)) (seq 0 (r_nb ch))).
(* the noise is less than half as long as the distance between any two noise-free signals *)
Definition clear_ml (e : R) (h : list (list C)) (c : list C) (n : nat) : Prop :=
  forall x x', vector_of c n x -> vector_of c n x' -> x' <> x -> (4 * e < sq_dist (map (fun row => apply_row row x) h) h x')%R.
(* the noise is less than half as long as h v for every v whose last non-zero entry is a difference of two points *)
Definition clear_successive (e : R) (h : list (list C)) (c : list C) (n : nat) : Prop :=
  forall v j p p', length v = n -> (j < n)%nat -> In p c -> In p' c -> p <> p' -> nth j v C0 = (p - p')%C -> (forall l, (j < l < n)%nat -> nth l v C0 = C0) ->
    (4 * e < energy_of h v)%R.
(* the number of bits a simulation without errors sends: whole chunks until at least send_max bits are sent *)
Definition bits_sent (send_max chunk : Z) : Z := chunk * ((send_max + chunk - 1) / chunk).
(* BPSK on a SISO link without fading: the bit 0 is sent as 1, the bit 1 as -1.  The real part of the noise on symbol i of transmission t
   is s / 2 times a standard normal draw, s^2 = 2 / SNR; the bit is wrong when it carries the symbol over the origin *)
Definition bpsk_wrong (dr : siso_draws) (snr : R) (t i : nat) : bool :=
  let x := (sqrt (2 / Rpower 10 (snr / 10)) / 2 * b_n1 dr t i)%R in
  if b_bits dr t i then (if Rle_dec 1 x then true else false) else (if Rlt_dec x (-1) then true else false).
(* the wrong bits of k transmissions of n bits, the first one being number t *)
Definition bpsk_errors (dr : siso_draws) (snr : R) (n t k : nat) : Z :=
  Zsum (map (fun u => Z.of_nat (length (filter (bpsk_wrong dr snr u) (seq 0 n)))) (seq t k)).
