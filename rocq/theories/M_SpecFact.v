(** Model of src/ellpy/oracles/spectral_fact.py:5-59, spectral_fact, in ideal arithmetic: cos, log,
    exp and the discrete Fourier transform (numpy.fft.fft / ifft, by their definition as sums) are
    the mathematical ones.  Complex numbers are pairs of reals. *)
From Coq Require Import Reals.
From Verif Require Import Base.
Local Open Scope R_scope.

Definition cplx : Type := R * R.
Definition cmul (z w : cplx) : cplx := (fst z * fst w - snd z * snd w, fst z * snd w + snd z * fst w).
Definition copp (z : cplx) : cplx := (- fst z, - snd z).
Definition cexp (z : cplx) : cplx := (exp (fst z) * cos (snd z), exp (fst z) * sin (snd z)).
Definition csum (m : nat) (f : nat -> cplx) : cplx :=
  (rsum m (fun k => fst (f k)), rsum m (fun k => snd (f k))).

(** numpy.fft.fft(a) for len(a) = m: sum over j of a[j] exp(-2 pi i j k / m) *)
Definition fft (m : nat) (a : nat -> cplx) (k : nat) : cplx :=
  csum m (fun j => cmul (a j) (cexp (0, - (2 * PI * INR j * INR k / INR m)))).
(** numpy.fft.ifft(a) for len(a) = m: 1/m times the sum over j of a[j] exp(+2 pi i j k / m) *)
Definition ifft (m : nat) (a : nat -> cplx) (k : nat) : cplx :=
  cmul (/ INR m, 0) (csum m (fun j => cmul (a j) (cexp (0, 2 * PI * INR j * INR k / INR m)))).

(** spectral_fact.py:5-59; n = len(r).
    n = 0: the matrix product of line 37 raises ValueError (shapes (0,1) and (0,)).
    A zero of R on the grid gives log(0) = -inf in line 39, and inf/nan afterwards: [FloatFault]. *)
Definition spectral_fact (n : nat) (r : nat -> R) : res (nat -> R) :=
  if Nat.eqb n 0 then Raise ValueError else
  let mult_factor := 100%nat in                                             (* :24 *)
  let m := (mult_factor * n)%nat in                                         (* :25 *)
  let w k := INR k * (2 * PI / INR m) in                                    (* :33 linspace, endpoint=False *)
  let Bn k j := w k * INR (1 + j) in                                        (* :35 outer(w, arange(1, n)) *)
  let An k j := 2 * cos (Bn k j) in                                         (* :36 *)
  let Rw k := ndot n (fun j => match j with O => 1 | S j => An k j end) r in (* :37 hstack, @ *)
  if existsb (fun k => Req_bool (Rw k) 0) (seq 0 m) then Raise FloatFault else
  let alpha k := / 2 * ln (Rabs (Rw k)) in                                  (* :39 *)
  let alphatmp := fft m (fun k => (alpha k, 0)) in                          (* :42 *)
  let ind := (m / 2)%nat in                                                 (* :44 *)
  let alphatmp := fun l => if andb (Nat.leb ind l) (Nat.ltb l m)
                           then copp (alphatmp l) else alphatmp l in        (* :45 *)
  let alphatmp := vset alphatmp 0 (0, 0) in                                 (* :46 *)
  let alphatmp := vset alphatmp ind (0, 0) in                               (* :47 *)
  let phi k := fst (ifft m (fun l => cmul (0, 1) (alphatmp l)) k) in        (* :48 *)
  let index k := (k * mult_factor)%nat in                                   (* :52 *)
  let alpha1 k := alpha (index k) in                                        (* :53 *)
  let phi1 k := phi (index k) in                                            (* :54 *)
  Ok (fun t => fst (ifft n (fun k => cexp (alpha1 k, phi1 k)) t)).          (* :57 *)
