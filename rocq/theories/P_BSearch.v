(** Proofs about bsearch. *)
From Coq Require Import QArith Reals Lra.
From Verif Require Import Base M_Drivers S_Drivers P_Drivers.
Local Open Scope nat_scope.

Section Gen.
Context {T Sc O : Type}.
Variable tau_of : T -> T -> Sc.
Variable mid : T -> Sc -> T.
Variable ltb : Sc -> Sc -> bool.
Variable neq : T -> T -> bool.
Variable omega : O -> T -> res (O * bool).

(** every probe is the midpoint of the current bracket and the bracket was not
    yet small *)
Fixpoint mids (tol : Sc) (lo hi : T) (tr : list (T * bool)) : Prop :=
  match tr with
  | [] => True
  | (t, b) :: tr' => t = mid lo (tau_of hi lo) /\ ltb (tau_of hi lo) tol = false /\
                     mids tol (if b then lo else t) (if b then t else hi) tr'
  end.

Lemma bs_loop_spec k : forall niter tol u0 o lo hi tr o' u info,
  bs_loop tau_of mid ltb neq omega k niter tol u0 o lo hi = Ok (tr, o', (u, info)) ->
  exists l,
    bs_replay omega o lo hi tr o' l u /\ mids tol lo hi tr /\
    feasible info = neq u u0 /\
    ((cstatus info = smallenough /\ ltb (tau_of u l) tol = true /\
      num_iters info = niter + length tr /\ length tr < k)
     \/ (cstatus info = success /\ num_iters info = niter + length tr - 1 /\
         length tr = k)).
Proof.
  induction k as [|k IH]; intros niter tol u0 o lo hi tr o' u info; cbn [bs_loop].
  - intros H; injection H as <- <- <- <-. exists lo; cbn.
    split; [constructor|]. split; [exact I|]. split; [reflexivity|]. right.
    repeat split; lia.
  - destruct (ltb (tau_of hi lo) tol) eqn:Et.
    + intros H; injection H as <- <- <- <-. exists lo; cbn.
      split; [constructor|]. split; [exact I|]. split; [reflexivity|]. left.
      repeat split; auto; lia.
    + intros H. apply bind_ok in H as ([o1 b] & Ho & H).
      apply bind_ok in H as ([[tr1 o2] [u2 info2]] & Hl & H).
      injection H as <- <- <- <-. apply IH in Hl as (l & Hr & Hm & Hf & Hs).
      exists l. split.
      { destruct b; [eapply BR_true|eapply BR_false]; eauto. }
      cbn [mids length]. split; [auto|]. split; [assumption|].
      destruct Hs as [(A & B & Cc & D)|(A & B & Cc)]; [left|right];
        repeat split; auto; lia.
Qed.

Lemma bsearch_spec max_it tol o lo hi tr o' u info :
  bsearch tau_of mid ltb neq omega max_it tol o (lo, hi) = Ok (tr, o', (u, info)) ->
  exists l,
    bs_replay omega o lo hi tr o' l u /\ mids tol lo hi tr /\
    feasible info = neq u hi /\
    ((cstatus info = smallenough /\ ltb (tau_of u l) tol = true /\
      num_iters info = length tr /\ length tr < max_it)
     \/ (cstatus info = success /\ num_iters info + 1 = length tr /\
         length tr = max_it)).
Proof.
  cbn [bsearch]. destruct max_it as [|k]; [discriminate|].
  intros H; apply bs_loop_spec in H as (l & Hr & Hm & Hf & Hs).
  exists l. split; [assumption|]. split; [assumption|]. split; [assumption|].
  destruct Hs as [(A & B & Cc & D)|(A & B & Cc)]; [left|right];
        repeat split; auto; lia.
Qed.

Lemma bsearch_total max_it tol o itv :
  (forall o t, exists r, omega o t = Ok r) -> max_it <> 0 ->
  exists r, bsearch tau_of mid ltb neq omega max_it tol o itv = Ok r.
Proof.
  intros Ho Hm. destruct itv as [lo hi].
  assert (forall k niter u0 o lo hi,
     exists r, bs_loop tau_of mid ltb neq omega k niter tol u0 o lo hi = Ok r) as HL.
  { induction k as [|k IH]; intros niter u0 o0 l h; cbn [bs_loop]; [eauto|].
    destruct (ltb _ _); [eauto|].
    destruct (Ho o0 (mid l (tau_of h l))) as ([o1 b] & ->); cbn [bind].
    edestruct IH as ([[tr o2] r] & ->); cbn; eauto. }
  cbn [bsearch]. destruct max_it; [easy|]. apply HL.
Qed.

Lemma bs_replay_bracket (P : T -> Prop) o lo hi tr o' l u :
  decides omega P ->
  bs_replay omega o lo hi tr o' l u -> ~ P lo -> P hi -> ~ P l /\ P u.
Proof.
  intros HP. induction 1 as [|o lo hi t o1 tr o' lo' hi' Ho Hr IH
                             |o lo hi t o1 tr o' lo' hi' Ho Hr IH]; intros Hl Hh; auto.
  - apply IH; auto. apply (HP _ _ _ _ Ho); reflexivity.
  - apply IH; auto. intros Ht. apply (HP _ _ _ _ Ho) in Ht. discriminate.
Qed.
End Gen.

Section Real.
Context {O : Type}.
Variable omega : O -> R -> res (O * bool).
Open Scope R_scope.

Lemma mids_width tol o lo hi tr o' l u :
  bs_replay omega o lo hi tr o' l u ->
  mids (fun u l => (u - l) / 2) Rplus Rltb tol lo hi tr -> lo <= hi ->
  u - l = (hi - lo) / 2 ^ length tr /\ lo <= l /\ l <= u /\ u <= hi.
Proof.
  induction 1 as [|o lo hi t o1 tr o' lo' hi' Ho Hr IH
                  |o lo hi t o1 tr o' lo' hi' Ho Hr IH]; cbn [mids length pow];
    intros Hm Hle.
  - split; [field|lra].
  - destruct Hm as (-> & _ & Hm). destruct (IH Hm) as (A & B); [lra|].
    split; [|lra]. rewrite A. field. apply pow_nonzero; lra.
  - destruct Hm as (-> & _ & Hm). destruct (IH Hm) as (A & B); [lra|].
    split; [|lra]. rewrite A. field. apply pow_nonzero; lra.
Qed.

Lemma bsearch_R_bracket (P : R -> Prop) max_it tol o lower upper tr o' u info :
  decides omega P -> (forall a b, a <= b -> P a -> P b) ->
  ~ P lower -> P upper -> 
  bsearch_R omega max_it tol o (lower, upper) = Ok (tr, o', (u, info)) ->
  P u /\ u <= upper /\
  (exists l, lower <= l /\ ~ P l /\ u - l = (upper - lower) / 2 ^ length tr /\
     (forall x, x <= l -> ~ P x) /\ (forall x, u <= x -> P x) /\
     (cstatus info = smallenough -> (u - l) / 2 < tol)) /\
  (feasible info = true <-> u <> upper) /\
  (cstatus info = smallenough \/ cstatus info = success /\ length tr = max_it).
Proof.
  intros HP Hup Hl Hu H. apply bsearch_spec in H as (l & Hr & Hm & Hf & Hs).
  assert (lower <= upper) as Hle.
  { destruct (Rle_dec lower upper) as [|n]; [assumption|]. exfalso.
    apply Hl. apply (Hup upper); [lra|assumption]. }
  destruct (bs_replay_bracket omega P _ _ _ _ _ _ _ HP Hr Hl Hu) as [Hl' Hu'].
  destruct (mids_width _ _ _ _ _ _ _ _ Hr Hm Hle) as (Hw & Ha & Hb & Hc).
  split; [assumption|]. split; [lra|]. split; [|split].
  - exists l. split; [assumption|]. split; [assumption|]. split; [assumption|].
    split; [intros x Hx HPx; apply Hl'; eapply Hup; eauto|].
    split; [intros x Hx; eapply Hup; eauto|].
    intros E. destruct Hs as [(_ & A & _)|(A & _)]; [|congruence].
    apply Rltb_true in A. exact A.
  - rewrite Hf. rewrite negb_true_iff. apply Reqb_false.
  - destruct Hs as [(A & _)|(A & _ & B)]; auto.
Qed.
End Real.

Section Int.
Context {O : Type}.
Variable omega : O -> Z -> res (O * bool).
Open Scope Z_scope.

Notation tauZ := (fun u l => (inject_Z (u - l) / 2)%Q).
Notation midZ := (fun l tau => Qtrunc (inject_Z l + tau)).

Lemma midZ_eq l u : midZ l (tauZ u l) = Z.quot (l + u) 2.
Proof.
  unfold Qtrunc. cbn. rewrite !Z.mul_1_r, ?Pos.mul_1_l. f_equal. lia.
Qed.

Lemma quot2_bounds s : 2 * Z.quot s 2 - 1 <= s <= 2 * Z.quot s 2 + 1.
Proof.
  pose proof (Z.quot_rem' s 2). pose proof (Z.rem_bound_abs s 2). lia.
Qed.

Lemma not_small u l (tol : Q) : l < u -> (tol <= 1 # 2)%Q -> Qltb (tauZ u l) tol = false.
Proof.
  intros H Ht. unfold Qltb. apply negb_false_iff, Qle_bool_iff.
  apply Qle_trans with (1 # 2)%Q; [assumption|].
  unfold Qle, Qdiv; cbn. lia.
Qed.

Lemma bsearch_Z_least (P : Z -> Prop) max_it tol o lower upper tr o' u info :
  decides omega P -> (forall a b, a <= b -> P a -> P b) ->
  ~ P lower -> P upper -> (tol <= 1 # 2)%Q ->
  upper - lower <= 2 ^ Z.of_nat max_it ->
  bsearch_Z omega max_it tol o (lower, upper) = Ok (tr, o', (u, info)) ->
  P u /\ (forall t, t < u -> ~ P t) /\ cstatus info = success /\ length tr = max_it.
Proof.
  intros HP Hup Hl Hu Htol Hsz H.
  apply bsearch_spec in H as (l & Hr & Hm & Hf & Hs).
  assert (Hord : forall a b, ~ P a -> P b -> a < b).
  { intros a b Ha Hb. destruct (Z_lt_le_dec a b); [assumption|].
    exfalso. apply Ha. eapply Hup; eauto. }
  destruct (bs_replay_bracket omega P _ _ _ _ _ _ _ HP Hr Hl Hu) as [Hl' Hu'].
  assert (Hlen : length tr = max_it /\ cstatus info = success).
  { destruct Hs as [(_ & A & _)|(A & _ & B)]; [|split; assumption]. exfalso.
    rewrite not_small in A; [discriminate|auto|assumption]. }
  destruct Hlen as [Hlen Hst]. subst max_it.
  assert (Hw : u - l <= 1).
  { clear Hs Hf. revert Hsz Hl Hu Hm.
    induction Hr as [|o lo hi t o1 tr o' lo' hi' Ho Hr IH
                     |o lo hi t o1 tr o' lo' hi' Ho Hr IH]; intros Hsz Hl Hu Hm.
    - cbn in Hsz. lia.
    - cbn [mids] in Hm. rewrite midZ_eq in Hm. destruct Hm as (-> & _ & Hm).
      assert (P (Z.quot (lo + hi) 2)) by (apply (HP _ _ _ _ Ho); reflexivity).
      apply IH; auto. cbn [length] in Hsz.
      rewrite Nat2Z.inj_succ, Z.pow_succ_r in Hsz by lia.
      pose proof (quot2_bounds (lo + hi)). 
      assert (0 < 2 ^ Z.of_nat (length tr)) by (apply Z.pow_pos_nonneg; lia). lia.
    - cbn [mids] in Hm. rewrite midZ_eq in Hm. destruct Hm as (-> & _ & Hm).
      assert (~ P (Z.quot (lo + hi) 2))
        by (intros Hp; apply (HP _ _ _ _ Ho) in Hp; discriminate).
      apply IH; auto. cbn [length] in Hsz.
      rewrite Nat2Z.inj_succ, Z.pow_succ_r in Hsz by lia.
      pose proof (quot2_bounds (lo + hi)). 
      assert (0 < 2 ^ Z.of_nat (length tr)) by (apply Z.pow_pos_nonneg; lia). lia. }
  split; [assumption|]. split; [|split; [assumption|reflexivity]].
  intros t Ht Hp. apply Hl'. apply (Hup t); [|assumption]. lia.
Qed.
End Int.
