(** Model of oracles/mle_corr_oracle.py. *)
From Verif Require Import Base M_Drivers M_Ell M_Chol M_Lmi M_Profit.
Local Open Scope num_scope.

Section Mle.
Context {A : Type} `{Num A} `{NumT A}.
Notation mat := (nat -> nat -> A).

(** np.linalg.inv of an m x m array: external, an arbitrary function that may raise. *)
Variable np_inv : nat -> mat -> res mat.

(** a @ b for m x m arrays *)
Definition matmul (m : nat) (a b : mat) : mat := fun i j => ndot m (a i) (fun k => b k j).
(** np.trace *)
Definition np_trace (m : nat) (a : mat) : A := psum m (fun i => a i i).
(** np.sum(np.log(np.diag(a))) *)
Fixpoint sum_log_diag (m : nat) (a : mat) : res A :=
  match m with
  | 0 => Ok nzero
  | S m' => s <- sum_log_diag m' a ;; l <- nlog (a m' m') ;; Ok (s + l)
  end.

(** mle_corr_oracle.py:15-28: attributes Y, Sig; the state is the workspace of lmi (built with
    2 * Y) and of lmi0.  All Sig[k] and Y are m x m (len(Y) = len(Sig[0]) = m). *)
Definition mle_init (m : nat) : chol A * chol A := (chol_init m, chol_init m).

(** mle_corr_oracle.py:49-63: value and gradient, R being the upper triangular factor *)
Definition mle_value (Y : mat) (m : nat) (U S : mat) : res A :=
  l <- sum_log_diag m U ;;
  Ok (nofZ 2 * l + np_trace m (matmul m S Y)).                    (* :54 *)
Definition mle_grad (Sig : list mat) (Y : mat) (m : nat) (S : mat) : nat -> A :=
  fun i =>
    let SFsi := matmul m S (nf Sig i) in                          (* :60 *)
    np_trace m SFsi -                                             (* :62 *)
    psum m (fun k => ndot m (SFsi k) (fun l => matmul m S Y l k)). (* :63 *)

(** mle_corr_oracle.py:31-69 __call__; nx = len(x) *)
Definition mle_call (Sig : list mat) (Y : mat) (m nx : nat) (o : chol A * chol A) (x : nat -> A) (t : A)
  : res ((chol A * chol A) * (gcut A * option A)) :=
  let '(Q, Q0) := o in
  ' (Q', c) <- lmi_call Sig (fun i j => nofZ 2 * Y i j) nx Q x ;; (* :41 *)
  match c with
  | Some cut => Ok ((Q', Q0), (cut, None))                        (* :42-43 *)
  | None =>
      ' (Q0', c) <- lmi0_call Sig nx Q0 x ;;                      (* :45 *)
      match c with
      | Some cut => Ok ((Q', Q0'), (cut, None))                   (* :46-47 *)
      | None =>
          U <- chol_sqrt Q0' ;;                                   (* :49 *)
          invR <- np_inv m U ;;                                   (* :50 *)
          let S := matmul m invR (fun i j => invR j i) in         (* :51 *)
          f1 <- mle_value Y m U S ;;                              (* :52-54 *)
          let g := mle_grad Sig Y m S in                          (* :56-63 *)
          let f := f1 - t in                                      (* :65 *)
          if f <? nzero then Ok ((Q', Q0'), ((g, nzero), Some f1)) (* :66-67 *)
          else Ok ((Q', Q0'), ((g, f), None))                     (* :69 *)
      end
  end.
End Mle.
