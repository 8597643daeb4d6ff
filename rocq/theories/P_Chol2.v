(** chol_ext: facts that need no algebra (accesses, history independence), and sqrt. *)
From Coq Require Import Reals Lra Psatz.
From Verif Require Import Base M_Chol S_LinAlg P_LinAlg P_Chol.
Local Open Scope nat_scope.

(** rows of the factorisation that were looked at *)
Definition rows_used (n : nat) (p : nat * nat) : nat := if Nat.eqb (snd p) 0 then n else snd p.

Section LawFree.
Context {A : Type} `{NE : NdotExt A}.

Definition agree (s e : nat) (T T' : nat -> nat -> A) : Prop :=
  forall a b, s <= a < e -> s <= b < e -> T a b = T' a b.

Section Rel.
Context {G : Type}.
Variables (getA getA' : G -> nat -> nat -> res (G * A)).

Lemma row_agree s i : (forall g j, j <= i -> getA g i j = getA' g i j) ->
  forall cnt j g T T' d, s <= j -> j + cnt = i -> agree s i T T' ->
  (forall b, s <= b < j -> T i b = T' i b /\ T b i = T' b i) ->
  match chol_row getA cnt s i j g T d with
  | Ok (g1, T1, d1) => exists T1', chol_row getA' cnt s i j g T' d = Ok (g1, T1', d1) /\
       agree s i T1 T1' /\ (forall b, s <= b < i -> T1 i b = T1' i b /\ T1 b i = T1' b i)
  | Raise e => chol_row getA' cnt s i j g T' d = Raise e
  end.
Proof.
  intros Hg. induction cnt as [|cnt IH]; intros j g T T' d Hj Hc Ha Hr.
  - cbn. exists T'. assert (j = i) by lia. subst j. auto.
  - cbn [chol_row]. rewrite !(mset_ne _ j i d j j) by lia.
    rewrite <- (Ha j j) by lia.
    destruct (ndiv d (T j j)) as [q|e]; cbn [bind]; [|reflexivity].
    set (T2 := mset (mset T j i d) i j q). set (T2' := mset (mset T' j i d) i j q).
    assert (Ha2 : agree s i T2 T2').
    { intros a b H1 H2. unfold T2, T2'. rewrite !mset_ne by lia. auto. }
    assert (Hr2 : forall b, s <= b < j + 1 -> T2 i b = T2' i b /\ T2 b i = T2' b i).
    { intros b Hb. unfold T2, T2'. destruct (Nat.eq_dec b j) as [->|Hne].
      - rewrite !mset_eq. rewrite !(mset_ne _ i j q j i) by lia. rewrite !mset_eq. auto.
      - rewrite !mset_ne by lia. apply Hr. lia. }
    rewrite <- Hg by lia. destruct (getA g i (j + 1)) as [[g1 a]|e]; cbn [bind]; [|reflexivity].
    rewrite (ndot_ext (j + 1 - s) (fun k => T2' i (s + k)) (fun k => T2 i (s + k))
                      (fun k => T2' (s + k) (j + 1)) (fun k => T2 (s + k) (j + 1))).
    + apply IH; [lia|lia|assumption|assumption].
    + intros k Hk. symmetry. apply Hr2. lia.
    + intros k Hk. symmetry. destruct (Nat.eq_dec (j + 1) i) as [->|Hne].
      * apply Hr2. lia.
      * apply Ha2; lia.
Qed.

Lemma rows_bound semi : forall cnt i s g T g' T' p,
  chol_rows getA semi cnt i s g T = Ok (g', T', p) -> snd p = 0 \/ i < snd p <= i + cnt.
Proof.
  induction cnt as [|cnt IH]; intros i s g T g' T' p Hr; cbn [chol_rows] in Hr.
  - injection Hr as <- <- <-. left; reflexivity.
  - apply bind_ok in Hr as ([g1 d0] & _ & Hr). apply bind_ok in Hr as ([[g2 T1] d] & _ & Hr).
    destruct (nltb nzero d).
    + apply IH in Hr. lia.
    + destruct (orb _ _).
      * injection Hr as <- <- <-. right. cbn. lia.
      * apply IH in Hr. lia.
Qed.

Lemma rows_agree semi lim n :
  (forall g i j, j <= i -> i < lim -> getA g i j = getA' g i j) ->
  forall cnt i s g T T', i + cnt = n -> s <= i -> agree s i T T' ->
  match chol_rows getA semi cnt i s g T with
  | Ok (g1, T1, p) => rows_used n p <= lim ->
      exists T1', chol_rows getA' semi cnt i s g T' = Ok (g1, T1', p) /\
      (snd p <> 0 -> agree (fst p) (snd p) T1 T1') /\
      (snd p = 0 -> semi = false -> agree s n T1 T1')
  | Raise e => n <= lim -> chol_rows getA' semi cnt i s g T' = Raise e
  end.
Proof.
  intros Hg. induction cnt as [|cnt IH]; intros i s g T T' Hn Hs Ha.
  - cbn. intros _. exists T'. assert (i = n) by lia. subst i. split; [reflexivity|]. split; auto; tauto.
  - pose proof (rows_bound semi (S cnt) i s g T) as Hbd. cbn [chol_rows] in *.
    destruct (lt_dec i lim) as [Hi|Hi].
    + rewrite <- (Hg g i s) by lia.
      destruct (getA g i s) as [[g1 d0]|e]; cbn [bind] in *; [|reflexivity].
      pose proof (row_agree s i (fun g j Hj => Hg g i j Hj Hi) (i - s) s g1 T T' d0) as Hrow.
      assert (match chol_row getA (i - s) s i s g1 T d0 with
              | Ok (g1', T1, d1) => exists T1', chol_row getA' (i - s) s i s g1 T' d0 = Ok (g1', T1', d1) /\
                   agree s i T1 T1' /\ (forall b, s <= b < i -> T1 i b = T1' i b /\ T1 b i = T1' b i)
              | Raise e => chol_row getA' (i - s) s i s g1 T' d0 = Raise e
              end) as Hrow'.
      { apply Hrow; [lia|lia|assumption|intros; lia]. }
      clear Hrow. destruct (chol_row getA (i - s) s i s g1 T d0) as [[[g2 T1] d]|e].
      2: { cbn [bind]. intros _. rewrite Hrow'. reflexivity. }
      destruct Hrow' as (T1' & -> & Ha1 & Hr1). cbn [bind] in *.
      assert (Ha2 : agree s (i + 1) (mset T1 i i d) (mset T1' i i d)).
      { intros a b H1 H2. destruct (Nat.eq_dec a i) as [->|Ea]; destruct (Nat.eq_dec b i) as [->|Eb].
        - rewrite !mset_eq. reflexivity.
        - rewrite !mset_ne by lia. apply Hr1. lia.
        - rewrite !mset_ne by lia. apply Hr1. lia.
        - rewrite !mset_ne by lia. apply Ha1; lia. }
      destruct (nltb nzero d); [apply IH; [lia|lia|assumption]|].
      destruct (orb (nltb d nzero) (negb semi)) eqn:B.
      * intros _. eexists. split; [reflexivity|]. cbn [fst snd]. split; [auto|lia].
      * pose proof (IH (i + 1) (i + 1) g2 (mset T1 i i d) (mset T1' i i d) ltac:(lia) ltac:(lia)
                      ltac:(intros a b; lia)) as IH'.
        destruct (chol_rows getA semi cnt (i + 1) (i + 1) g2 (mset T1 i i d)) as [[[g3 T3] p]|e];
          [|exact IH'].
        intros Hl. destruct (IH' Hl) as (T3' & -> & H1 & H2). exists T3'. split; [reflexivity|].
        split; [exact H1|]. intros _ ->. rewrite orb_true_r in B. discriminate.
    + match goal with |- match ?m with _ => _ end => destruct m as [[[g1 T1] p]|e] eqn:E end; [|lia].
      intros Hl. exfalso. destruct (Hbd g1 T1 p eq_refl) as [H0|H0]; unfold rows_used in Hl.
      * rewrite H0 in Hl. cbn in Hl. lia.
      * destruct (Nat.eqb_spec (snd p) 0); lia.
Qed.
End Rel.

(** the outcome of factor as far as later calls can see it *)
Definition same_outcome (semi : bool) (n : nat) (Q1 Q2 : chol A) : Prop :=
  c_p Q1 = c_p Q2 /\
  (snd (c_p Q1) <> 0 -> agree (fst (c_p Q1)) (snd (c_p Q1)) (c_T Q1) (c_T Q2)) /\
  (snd (c_p Q1) = 0 -> semi = false -> agree 0 n (c_T Q1) (c_T Q2)).

Lemma factor_agree {G} (getA getA' : G -> nat -> nat -> res (G * A)) lim g (Q Q' : chol A) :
  c_n Q = c_n Q' -> c_semi Q = c_semi Q' ->
  (forall g i j, j <= i -> i < lim -> getA g i j = getA' g i j) ->
  match chol_factor getA g Q with
  | Ok (g1, Q1, b) => rows_used (c_n Q) (c_p Q1) <= lim ->
      exists Q1', chol_factor getA' g Q' = Ok (g1, Q1', b) /\ same_outcome (c_semi Q) (c_n Q) Q1 Q1'
  | Raise e => c_n Q <= lim -> chol_factor getA' g Q' = Raise e
  end.
Proof.
  intros En Es Hg. unfold chol_factor. rewrite <- En, <- Es.
  pose proof (rows_agree getA getA' (c_semi Q) lim (c_n Q) Hg (c_n Q) 0 0 g (c_T Q) (c_T Q')
    eq_refl ltac:(lia) ltac:(intros a b; lia)) as Hr.
  destruct (chol_rows getA (c_semi Q) (c_n Q) 0 0 g (c_T Q)) as [[[g1 T1] p]|e]; cbn [bind].
  - cbn [c_p]. intros Hl. destruct (Hr Hl) as (T1' & -> & H1 & H2). cbn [bind].
    eexists. split; [reflexivity|]. split; [reflexivity|]. cbn [c_p c_T]. auto.
  - intros Hl. rewrite (Hr Hl). reflexivity.
Qed.

Lemma witness_loop_agree s n (T T' : nat -> nat -> A) : agree s n T T' ->
  forall cnt i v v', cnt + s = i -> i <= n ->
  (forall k, i <= k < n -> v k = v' k) ->
  forall k, s <= k < n -> witness_loop cnt i n T v k = witness_loop cnt i n T' v' k.
Proof.
  intros Ha. induction cnt as [|cnt IH]; intros i v v' Hi Hin Hv k Hk; cbn [witness_loop].
  - apply Hv. lia.
  - apply IH; [lia|lia| |assumption].
    intros r Hr. destruct (Nat.eq_dec r (i - 1)) as [->|Hne].
    + rewrite !vset_eq. f_equal. apply ndot_ext.
      * intros l Hl. apply Ha; lia.
      * intros l Hl. apply Hv. lia.
    + rewrite !vset_ne by assumption. apply Hv. lia.
Qed.

Lemma witness_agree semi n (Q Q' : chol A) : same_outcome semi n Q Q' ->
  snd (c_p Q) <> 0 -> fst (c_p Q) < snd (c_p Q) ->
  exists Q2 Q2' ep, chol_witness Q = Ok (Q2, ep) /\ chol_witness Q' = Ok (Q2', ep) /\
    c_p Q2 = c_p Q /\ c_p Q2' = c_p Q /\
    (forall k, fst (c_p Q) <= k < snd (c_p Q) -> c_v Q2 k = c_v Q2' k) /\
    (forall M, chol_sym_quad Q2 M = chol_sym_quad Q2' M).
Proof.
  intros (Ep & Ha & _) Hn Hs. specialize (Ha Hn).
  unfold chol_witness, chol_is_spd. rewrite <- Ep.
  destruct (Nat.eqb_spec (snd (c_p Q)) 0); [contradiction|].
  destruct (c_p Q) as [s e] eqn:E. cbn [fst snd] in *.
  rewrite <- (Ha (e - 1) (e - 1)) by lia.
  do 3 eexists. split; [reflexivity|]. split; [reflexivity|]. cbn [c_p c_v].
  split; [reflexivity|]. split; [reflexivity|].
  assert (Hv : forall k, s <= k < e ->
     witness_loop (e - 1 - s) (e - 1) e (c_T Q) (vset (c_v Q) (e - 1) none) k =
     witness_loop (e - 1 - s) (e - 1) e (c_T Q') (vset (c_v Q') (e - 1) none) k).
  { apply witness_loop_agree; [assumption|lia|lia|].
    intros k Hk. replace k with (e - 1) by lia. rewrite !vset_eq. reflexivity. }
  split; [exact Hv|].
  intros M. unfold chol_sym_quad. cbn [c_p c_v].
  apply ndot_ext; intros j Hj; [|apply Hv; lia].
  apply ndot_ext; intros k Hk; [apply Hv; lia|reflexivity].
Qed.

Lemma factor_p_lt {G} (getA : G -> nat -> nat -> res (G * A)) g (Q Q1 : chol A) g1 b :
  chol_factor getA g Q = Ok (g1, Q1, b) ->
  b = chol_is_spd Q1 /\ (snd (c_p Q1) = 0 \/ fst (c_p Q1) < snd (c_p Q1) <= c_n Q).
Proof.
  unfold chol_factor. intros Hf. apply bind_ok in Hf as ([[g' T] p] & Hr & Hf).
  injection Hf as <- <- <-. split; [reflexivity|]. cbn [c_p].
  assert (Hgen : forall cnt i s g T g' T' p, s <= i -> chol_rows getA (c_semi Q) cnt i s g T = Ok (g', T', p) ->
     snd p = 0 \/ fst p < snd p <= i + cnt).
  { clear. induction cnt as [|cnt IH]; intros i s g T g' T' p Hs Hr; cbn [chol_rows] in Hr.
    - injection Hr as <- <- <-. left; reflexivity.
    - apply bind_ok in Hr as ([g1 d0] & _ & Hr). apply bind_ok in Hr as ([[g2 T1] d] & _ & Hr).
      destruct (nltb nzero d).
      + apply IH in Hr; lia.
      + destruct (orb _ _).
        * injection Hr as <- <- <-. right. cbn. lia.
        * apply IH in Hr; lia. }
  apply Hgen in Hr; [|lia]. lia.
Qed.

(** *** the accesses, in order *)
Definition log_getA (M : nat -> nat -> A) : list (nat * nat) -> nat -> nat -> res (list (nat * nat) * A) :=
  fun l i j => Ok (l ++ [(i, j)], M i j).
Definition row_accesses (i s : nat) : list (nat * nat) := map (pair i) (seq s (S i - s)).

Lemma row_log M s i : forall cnt j l T d l' T' d', j + cnt = i ->
  chol_row (log_getA M) cnt s i j l T d = Ok (l', T', d') ->
  l' = l ++ map (pair i) (seq (j + 1) cnt).
Proof.
  induction cnt as [|cnt IH]; intros j l T d l' T' d' Hc Hr; cbn [chol_row] in Hr.
  - injection Hr as <- <- <-. cbn. rewrite app_nil_r. reflexivity.
  - apply bind_ok in Hr as (q & _ & Hr). cbn [log_getA bind] in Hr.
    apply IH in Hr; [|lia]. rewrite Hr. rewrite <- app_assoc. cbn [seq map app].
    replace (S (j + 1)) with (j + 1 + 1) by lia. reflexivity.
Qed.

Lemma rows_log M semi : forall cnt i s l T l' T' p, s <= i ->
  chol_rows (log_getA M) semi cnt i s l T = Ok (l', T', p) ->
  exists st, (forall k, i <= k -> s <= st k <= k) /\ (semi = false -> forall k, i <= k -> st k = s) /\
    l' = l ++ flat_map (fun k => row_accesses k (st k)) (seq i (rows_used (i + cnt) p - i)).
Proof.
  induction cnt as [|cnt IH]; intros i s l T l' T' p Hs Hr; cbn [chol_rows] in Hr.
  - injection Hr as <- <- <-. exists (fun _ => s). split; [intros; lia|]. split; [reflexivity|].
    unfold rows_used; cbn [snd Nat.eqb]. replace (i + 0 - i) with 0 by lia. cbn. rewrite app_nil_r. reflexivity.
  - cbn [log_getA bind] in Hr.
    apply bind_ok in Hr as ([[l2 T1] d] & Hrow & Hr). apply row_log in Hrow; [|lia].
    assert (El : l2 = l ++ row_accesses i s).
    { rewrite Hrow, <- app_assoc. f_equal. unfold row_accesses. replace (S i - s) with (S (i - s)) by lia.
      cbn [seq map app]. replace (s + 1) with (S s) by lia. reflexivity. }
    assert (Hpt : forall p, snd p = 0 \/ i + 1 < snd p -> 
       rows_used (i + S cnt) p - i = S (rows_used (i + 1 + cnt) p - (i + 1))).
    { intros p0 H0. unfold rows_used. destruct (Nat.eqb_spec (snd p0) 0); lia. }
    destruct (nltb nzero d).
    + assert (Hb := rows_bound _ _ _ _ _ _ _ _ _ _ Hr).
      apply IH in Hr as (st & H1 & H2 & H3); [|lia].
      exists (fun k => if Nat.eqb k i then s else st k).
      split; [|split].
      * intros k Hk. destruct (Nat.eqb_spec k i); [lia|]. apply H1. lia.
      * intros E k Hk. destruct (Nat.eqb_spec k i); [reflexivity|]. apply H2; [assumption|lia].
      * rewrite Hpt by lia. cbn [seq flat_map]. rewrite Nat.eqb_refl.
        rewrite H3, El, <- app_assoc. f_equal. f_equal. replace (i + 1) with (S i) by lia.
        rewrite !flat_map_concat_map. f_equal. apply map_ext_in. intros k Hk. apply in_seq in Hk.
        destruct (Nat.eqb_spec k i); [lia|reflexivity].
    + destruct (orb _ _) eqn:B.
      * injection Hr as <- <- <-. exists (fun _ => s). split; [intros; lia|]. split; [reflexivity|].
        unfold rows_used; cbn [snd]. destruct (Nat.eqb_spec (i + 1) 0); [lia|].
        replace (i + 1 - i) with 1 by lia. cbn [seq flat_map]. rewrite app_nil_r. exact El.
      * assert (Hb := rows_bound _ _ _ _ _ _ _ _ _ _ Hr).
        apply IH in Hr as (st & H1 & H2 & H3); [|lia].
        exists (fun k => if Nat.eqb k i then s else st k).
        split; [|split].
        -- intros k Hk. destruct (Nat.eqb_spec k i); [lia|]. specialize (H1 k ltac:(lia)). lia.
        -- intros ->. rewrite orb_true_r in B. discriminate.
        -- rewrite Hpt by lia. cbn [seq flat_map]. rewrite Nat.eqb_refl.
           rewrite H3, El, <- app_assoc. f_equal. f_equal. replace (i + 1) with (S i) by lia.
           rewrite !flat_map_concat_map. f_equal. apply map_ext_in. intros k Hk. apply in_seq in Hk.
           destruct (Nat.eqb_spec k i); [lia|reflexivity].
Qed.
End LawFree.

(** *** sqrt *)
Local Open Scope R_scope.
Lemma sqrt_row_spec i (T : nat -> nat -> R) : forall cnt j M, (i < j)%nat ->
  let M' := sqrt_row cnt j i T M in
  (forall a b, ~ (a = i /\ j <= b < j + cnt)%nat -> M' a b = M a b) /\
  (forall b, (j <= b < j + cnt)%nat -> M' i b = T b i * M i i).
Proof.
  induction cnt as [|cnt IH]; intros j M Hj; cbn [sqrt_row].
  - split; [reflexivity|intros; lia].
  - destruct (IH (j + 1)%nat (mset M i j (nmul (T j i) (M i i)))) as [H1 H2]; [lia|].
    split.
    + intros a b Hab. rewrite H1 by lia. apply mset_ne. lia.
    + intros b Hb. destruct (Nat.eq_dec b j) as [->|Hne].
      * rewrite H1 by lia. apply mset_eq.
      * rewrite H2 by lia. rewrite mset_ne by lia. reflexivity.
Qed.

Lemma sqrt_rows_spec n (T : nat -> nat -> R) : forall cnt i M, (i + cnt = n)%nat ->
  (forall a, (i <= a < n)%nat -> 0 <= T a a) ->
  exists M', sqrt_rows cnt i n T M = Ok M' /\
   (forall a b, ((a < i) \/ (b < a))%nat -> M' a b = M a b) /\
   (forall a, (i <= a < n)%nat -> M' a a = sqrt (T a a)) /\
   (forall a b, (i <= a < b)%nat -> (b < n)%nat -> M' a b = T b a * sqrt (T a a)).
Proof.
  induction cnt as [|cnt IH]; intros i M Hi Hp; cbn [sqrt_rows].
  - exists M. repeat split; intros; reflexivity || lia.
  - rewrite rsqrt_ok by (apply Hp; lia). cbn [bind].
    destruct (sqrt_row_spec i T (n - (i + 1)) (i + 1)%nat (mset M i i (sqrt (T i i)))) as [H1 H2]; [lia|].
    cbn zeta in H1, H2.
    destruct (IH (i + 1)%nat (sqrt_row (n - (i + 1)) (i + 1) i T (mset M i i (sqrt (T i i)))))
      as (M' & Hr & F1 & F2 & F3); [lia|intros a Ha; apply Hp; lia|].
    exists M'. split; [exact Hr|]. split; [|split].
    + intros a b Hab. rewrite F1 by lia. rewrite H1 by lia. apply mset_ne. lia.
    + intros a Ha. destruct (Nat.eq_dec a i) as [->|Hne].
      * rewrite F1 by lia. rewrite H1 by lia. apply mset_eq.
      * apply F2. lia.
    + intros a b Hab Hb. destruct (Nat.eq_dec a i) as [->|Hne].
      * rewrite F1 by lia. rewrite H2 by lia. rewrite mset_eq. reflexivity.
      * apply F3; lia.
Qed.

Lemma chol_sqrt_spec (Q : chol R) M n : c_p Q = (0, 0)%nat -> c_n Q = n ->
  ldl M 0 n (c_T Q) -> (forall a, (a < n)%nat -> 0 < c_T Q a a) -> sym n M ->
  exists U, chol_sqrt Q = Ok U /\
    (forall i j, (j < i)%nat -> U i j = 0) /\ (forall i, (i < n)%nat -> 0 < U i i) /\
    (forall i j, (i < n)%nat -> (j < n)%nat -> rsum n (fun k => U k i * U k j) = M i j).
Proof.
  intros Hp Hn HL Hd Hsy. unfold chol_sqrt, chol_is_spd. rewrite Hp. cbn [snd Nat.eqb]. rewrite Hn.
  destruct (sqrt_rows_spec n (c_T Q) n 0%nat (fun _ _ => nzero)) as (U & -> & F1 & F2 & F3);
    [lia|intros a Ha; left; apply Hd; lia|].
  exists U. split; [reflexivity|]. split; [|split].
  - intros i j Hij. rewrite F1 by lia. reflexivity.
  - intros i Hi. rewrite F2 by lia. apply sqrt_lt_R0. apply Hd. assumption.
  - intros i j Hi Hj.
    change (M i j) with (blk M 0 i j).
    rewrite (ldl_entry_sym M 0 n (c_T Q) i j n) by (auto; lia).
    apply rsum_ext. intros l Hl.
    assert (HU : forall a, (a < n)%nat -> U l a = Lh 0 (c_T Q) a l * sqrt (Dg 0 (c_T Q) l)).
    { intros a Ha. unfold Dg. cbn [Nat.add]. destruct (lt_eq_lt_dec l a) as [[H|H]|H].
      - rewrite F3 by lia. rewrite Lh_lt by lia. reflexivity.
      - subst a. rewrite F2 by lia. rewrite Lh_eq. ring.
      - rewrite F1 by lia. rewrite Lh_gt by lia. cbn. ring. }
    rewrite !HU by assumption.
    assert (E := sqrt_sqrt (Dg 0 (c_T Q) l)). specialize (Hd l Hl).
    unfold Dg in *. cbn [Nat.add] in *. rewrite <- E at 3 by lra. ring.
Qed.
