(** Model of oracles/lowpass_oracle.py and oracles/csdlowpass_oracle.py. *)
From Verif Require Import Base M_Drivers M_Ell.
Local Open Scope num_scope.

Section Lowpass.
Context {A : Type} `{Num A}.
Notation vec := (nat -> A).

(** lowpass_oracle.py:28-42: the constructor's arguments.  A matrix is its number of rows and its
    rows; all matrices have n columns (Ap.shape[1], line 60).  x is a vector of length n; the
    ValueError of a product of unequal lengths is not modelled. *)
Record lowpass := mkLowpass {
  lp_n : nat;
  lp_Np : nat; lp_Ap : nat -> vec;
  lp_Ns : nat; lp_As : nat -> vec;
  lp_Nr : nat; lp_Anr : nat -> vec;
  lp_Lpsq : A; lp_Upsq : A }.

(** lowpass_oracle.py:20-26: the attributes that change *)
Record lp_state := mkLp { lp_more : bool; lp_iAnr : nat; lp_iAs : nat; lp_iAp : nat }.
Definition lp_init : lp_state := {| lp_more := true; lp_iAnr := 0; lp_iAs := 0; lp_iAp := 0 |}.

(** chain(range(i, N), range(i)) *)
Definition round_robin (i N : nat) : list nat := seq i (N - i) ++ seq 0 i.
(** M[k, :] *)
Definition row (N : nat) (M : nat -> vec) (k : nat) : res vec :=
  if Nat.ltb k N then Ok (M k) else Raise IndexError.
Definition vopp (v : vec) : vec := fun i => - v i.

Variable P : lowpass.
Notation dotn := (ndot (lp_n P)).

(** lowpass_oracle.py:62-74, the passband loop; Some (k, cut) is an early return with i_Ap := k+1 *)
Fixpoint pass_loop (ks : list nat) (x : vec) : res (option (nat * cut A)) :=
  match ks with
  | [] => Ok None
  | k :: ks =>
      a <- row (lp_Np P) (lp_Ap P) k ;;
      let v := dotn a x in                                                        (* :63 *)
      if lp_Upsq P <? v then                                                      (* :64-68 *)
        Ok (Some (k, (a, BArr [v - lp_Upsq P; v - lp_Lpsq P])))
      else if v <? lp_Lpsq P then                                                 (* :70-74 *)
        Ok (Some (k, (vopp a, BArr [- v + lp_Lpsq P; - v + lp_Upsq P])))
      else pass_loop ks x
  end.

(** lowpass_oracle.py:82-98, the stopband loop.  [fmax = None] stands for float("-inf"); every
    number that is not NaN and passed the test [v < 0] is greater than that. *)
Fixpoint stop_loop (ks : list nat) (x : vec) (Spsq : A) (fmax : option A) (imax : nat)
  : res ((nat * cut A) + (option A * nat)) :=
  match ks with
  | [] => Ok (inr (fmax, imax))
  | k :: ks =>
      a <- row (lp_Ns P) (lp_As P) k ;;
      let v := dotn a x in                                                        (* :83 *)
      if Spsq <? v then Ok (inl (k, (a, BArr [v - Spsq; v])))                     (* :84-88 *)
      else if v <? nzero then Ok (inl (k, (vopp a, BArr [- v; - v + Spsq])))      (* :90-94 *)
      else
        let gt := match fmax with Some m => m <? v | None => v =? v end in        (* :96 *)
        if gt then stop_loop ks x Spsq (Some v) k else stop_loop ks x Spsq fmax imax
  end.

(** lowpass_oracle.py:104-110, the loop over the other frequencies *)
Fixpoint nonneg_loop (ks : list nat) (x : vec) : res (option (nat * cut A)) :=
  match ks with
  | [] => Ok None
  | k :: ks =>
      a <- row (lp_Nr P) (lp_Anr P) k ;;
      let v := dotn a x in
      if v <? nzero then Ok (Some (k, (vopp a, BScalar (- v)))) else nonneg_loop ks x
  end.

(** lowpass_oracle.py:44-126 __call__ *)
Definition lowpass_call (s : lp_state) (x : vec) (Spsq : A)
  : res (lp_state * (cut A * option A)) :=
  r <- pass_loop (round_robin (lp_iAp s) (lp_Np P)) x ;;
  match r with
  | Some (k, c) =>
      Ok ({| lp_more := true; lp_iAnr := lp_iAnr s; lp_iAs := lp_iAs s; lp_iAp := S k |}, (c, None))
  | None =>
      r <- stop_loop (round_robin (lp_iAs s) (lp_Ns P)) x Spsq None 0 ;;
      match r with
      | inl (k, c) =>
          Ok ({| lp_more := true; lp_iAnr := lp_iAnr s; lp_iAs := S k; lp_iAp := lp_iAp s |}, (c, None))
      | inr (fmax, imax) =>
          r <- nonneg_loop (round_robin (lp_iAnr s) (lp_Nr P)) x ;;
          match r with
          | Some (k, c) =>
              Ok ({| lp_more := true; lp_iAnr := S k; lp_iAs := lp_iAs s; lp_iAp := lp_iAp s |}, (c, None))
          | None =>
              let s' := {| lp_more := false; lp_iAnr := lp_iAnr s; lp_iAs := lp_iAs s;
                           lp_iAp := lp_iAp s |} in                               (* :112 *)
              if x 0%nat <? nzero then                                            (* :115-119 *)
                Ok (s', ((vset (fun _ => nzero) 0 (- none), BScalar (- x 0%nat)), None))
              else
                g <- row (lp_Ns P) (lp_As P) imax ;;                              (* :125 *)
                match fmax with
                | Some m => Ok (s', ((g, BArr [nzero; m]), Some m))               (* :122-126 *)
                | None => Raise FloatFault     (* every As[k] @ x is NaN: the answer is -inf *)
                end
          end
      end
  end.

(** csdlowpass_oracle.py.  The rounding of lines 50-52 (spectral factor, conversion to nnz signed
    digits, inverse spectral factor) is a parameter: an arbitrary partial function of r. *)
Variable rounding : vec -> res vec.

(** the state: the lowpass oracle's and [self.rcsd] *)
Definition csd_state : Type := lp_state * option vec.

(** [hc += s] for hc a number or a pair (a tuple plus a NumPy scalar is an array) *)
Definition beta_add (b : cut_beta A) (s : A) : cut_beta A :=
  match b with
  | BScalar b => BScalar (b + s)
  | BArr bs => BArr (map (fun b => b + s) bs)
  end.

(** csdlowpass_oracle.py:54-58 *)
Definition csd_second (s : lp_state) (rcsd : option vec) (r : vec) (Spsq : A) (retry : bool)
  : res (csd_state * (cut A * vec * option A * bool)) :=
  match rcsd with
  | None => Raise TypeError                        (* len(None), lowpass_oracle.py:55 *)
  | Some rc =>
      '(s, ((gc, hc), Spsq2)) <- lowpass_call s rc Spsq ;;                        (* :54 *)
      let hc := beta_add hc (dotn gc (fun i => rc i - r i)) in                    (* :56 *)
      let more_alt := andb (lp_more s) (negb retry) in                            (* :57 *)
      Ok ((s, Some rc), ((gc, hc), rc, Spsq2, more_alt))
  end.
(** csdlowpass_oracle.py:34-58 __call__ *)
Definition csd_call (o : csd_state) (r : vec) (Spsq : A) (retry : bool)
  : res (csd_state * (cut A * vec * option A * bool)) :=
  let '(s, rcsd) := o in
  if retry then csd_second s rcsd r Spsq retry
  else
    '(s, (c, Spsq2)) <- lowpass_call s r Spsq ;;                                  (* :47 *)
    match Spsq2 with
    | None => Ok ((s, rcsd), (c, r, None, true))                                  (* :48-49 *)
    | Some _ =>
        rc <- rounding r ;;                                                       (* :50-52 *)
        csd_second s (Some rc) r Spsq retry
    end.
End Lowpass.
Arguments lowpass A : clear implicits.
Arguments csd_state A : clear implicits.
