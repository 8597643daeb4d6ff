(** Property theorems about the draft oracles imi_oracle, sdp_oracle and rank1_oracle (C135-C138). *)
From Coq Require Import Reals Lra Lia Bool List Arith QArith_base.
Delimit Scope Q_scope with Q.
From Verif Require Import Base M_Chol M_Ell M_Lmi M_Drafts M_Drivers S_Drivers T_Drivers S_LinAlg P_LinAlg P_Chol S_Lmi P_Lmi T_Lmi.
Import ListNotations.
Local Open Scope R_scope.

(** [[Sig(x), I], [I, S(x)]] with Sig(x) = sum F_k x_k and S(x) = sum F_k x_(n+k), n = len(F) *)
Definition imi_mat (N : nat) (F : list (nat -> nat -> R)) (x : nat -> R) : nat -> nat -> R := fun i j =>
  if (i <? N)%nat then
    if (j <? N)%nat then lin_mat F x i j else if Nat.eqb i (j - N) then 1 else 0
  else
    if (j <? N)%nat then if Nat.eqb (i - N) j then 1 else 0
    else lin_mat F (fun k => x (k + length F)%nat) (i - N) (j - N).
Lemma imi_mat_sym N F x : all_sym N F -> sym (2 * N) (imi_mat N F x).
Proof.
  intros HF i j Hi Hj. unfold imi_mat. destruct (Nat.ltb_spec i N), (Nat.ltb_spec j N).
  - apply (lin_mat_sym N F x HF); assumption.
  - rewrite Nat.eqb_sym. reflexivity.
  - rewrite Nat.eqb_sym. reflexivity.
  - apply (lin_mat_sym N F _ HF); lia.
Qed.
(** the factorisation asks only for the lower triangle *)
Lemma imi_core N F (Q : chol R) x : all_sym N F -> chol_for (2 * N) Q ->
  exists Q1 b, chol_factor (imi_getA F N (length F) x) tt Q = Ok (tt, Q1, b) /\ chol_for (2 * N) Q1 /\
    (b = true <-> pd (2 * N) (imi_mat N F x)) /\
    (b = false -> exists Q2 ep e, chol_witness Q1 = Ok (Q2, ep) /\ chol_for (2 * N) Q2 /\ 0 <= ep /\
       (0 < e <= 2 * N)%nat /\ c_p Q2 = (0%nat, e) /\
       bf e (imi_mat N F x) (c_v Q2) (c_v Q2) = - ep).
Proof.
  intros HF [Hn Hse].
  assert (Hs := imi_mat_sym N F x HF).
  assert (Hget : getter (c_n Q) (imi_mat N F x) (fun _ _ => True) (imi_getA F N (length F) x)).
  { intros [] i j Hj Hi _. exists tt. unfold imi_getA, imi_mat. rewrite !lin_sum_ok.
    destruct (Nat.ltb_spec i N).
    - destruct (Nat.ltb_spec j N); [|lia]. cbn [bind]. auto.
    - destruct (Nat.ltb_spec j N); cbn [bind none nzero RNum]; auto. }
  rewrite <- Hn in Hs.
  destruct (chol_factor_pd (imi_mat N F x) _ (imi_getA F N (length F) x) Q tt Hget I Hs Hse) as ([] & Q1 & b & Hf & Hb).
  exists Q1, b. split; [exact Hf|]. split; [eapply chol_factor_keep; [split|]; eassumption|].
  split; [rewrite <- Hn; exact Hb|]. intros ->.
  destruct (chol_failed_witness (imi_mat N F x) _ (imi_getA F N (length F) x) Q tt tt Q1 Hget I Hs Hf)
    as (Q2 & ep & s & e & Hw & P1 & P2 & _ & P4 & P3 & Pse & P5 & _ & P6 & _ & _ & P7).
  destruct (chol_factor_keep _ _ _ _ _ _ (2 * N) (conj Hn Hse) Hf) as [Hn1 Hse1].
  rewrite (P5 Hse) in *. exists Q2, ep, e. split; [exact Hw|]. split; [split; congruence|]. split; [exact P6|].
  split; [lia|]. split; [congruence|]. cbn zeta in P7. rewrite Nat.sub_0_r in P7. exact P7.
Qed.

(** ** C135: imi_oracle as written accepts exactly the feasible points and otherwise raises *)
Theorem C135_imi_decides :
  forall N F (Q : chol R) x, all_sym N F -> chol_for (2 * N) Q ->
  (pd (2 * N) (imi_mat N F x) -> exists Q', imi_call F N (length F) Q x = Ok (Q', None) /\ chol_for (2 * N) Q') /\
  (~ pd (2 * N) (imi_mat N F x) -> imi_call F N (length F) Q x = Raise TypeError).
Proof.
  intros N F Q x HF HQ. destruct (imi_core N F Q x HF HQ) as (Q1 & b & E & HQ1 & Hb & Hc).
  unfold imi_call. rewrite E. cbn [bind]. destruct b.
  - split; [intros _; eauto|]. intros H. exfalso. apply H, Hb. reflexivity.
  - split; [intros H; apply Hb in H; discriminate|]. intros _. destruct Hc as (Q2 & ep & e & Hw & _); [reflexivity|]. rewrite Hw. reflexivity.
Qed.
Print Assumptions C135_imi_decides.

(** x1, x2 with [[x1, 1], [1, x2]] >= 0 *)
Definition ex_F1 : list (nat -> nat -> R) := [fun _ _ => 1].
Definition ex_pt (a b : R) : nat -> R := fun k => match k with O => a | _ => b end.
Lemma ex_imi a b i j : imi_mat 1 ex_F1 (ex_pt a b) i j =
  if (i <? 1)%nat then if (j <? 1)%nat then a else if Nat.eqb i (j - 1) then 1 else 0
  else if (j <? 1)%nat then if Nat.eqb (i - 1) j then 1 else 0 else b.
Proof.
  unfold imi_mat, lin_mat, ex_F1, ex_pt. cbn [length rsum nth Nat.add].
  destruct (i <? 1)%nat, (j <? 1)%nat; try reflexivity; ring.
Qed.
Lemma ex_form a b u : bf 2 (imi_mat 1 ex_F1 (ex_pt a b)) u u = a * (u 0%nat * u 0%nat) + 2 * (u 0%nat * u 1%nat) + b * (u 1%nat * u 1%nat).
Proof. unfold bf, mvr, dot. cbn [rsum]. rewrite !ex_imi. cbn. ring. Qed.
Example C135_ex :
  (exists Q', imi_call ex_F1 1 1 (chol_init 2) (ex_pt 2 2) = Ok (Q', None)) /\
  imi_call ex_F1 1 1 (chol_init 2) (ex_pt 1 (-1)) = Raise TypeError.
Proof.
  assert (HF : all_sym 1 ex_F1) by (intros M [<-|[]] i j _ _; reflexivity).
  assert (HQ : chol_for (2 * 1) (@chol_init R RNum 2)) by (split; reflexivity).
  split.
  - destruct (C135_imi_decides 1 ex_F1 (chol_init 2) (ex_pt 2 2) HF HQ) as [H _]. destruct H as (Q' & E & _); [|eauto].
    intros u (k & Hk & Hu). rewrite ex_form.
    assert (0 <= (u 0%nat + u 1%nat) * (u 0%nat + u 1%nat)) by apply Rle_0_sqr.
    assert (H0 := Rle_0_sqr (u 0%nat)). assert (H1 := Rle_0_sqr (u 1%nat)). unfold Rsqr in *.
    assert (0 < u k * u k) by (apply Rsqr_pos_lt, Hu).
    destruct k as [|[|k]]; [| |cbn in Hk; lia]; lra.
  - destruct (C135_imi_decides 1 ex_F1 (chol_init 2) (ex_pt 1 (-1)) HF HQ) as [_ H]. apply H. intros Hp.
    specialize (Hp (ex_pt 0 1)). rewrite ex_form in Hp. cbn in Hp. 
    assert (nonzero (2 * 1) (ex_pt 0 1)) by (exists 1%nat; cbn; split; [lia|lra]). specialize (Hp H0). lra.
Qed.

(** ** C136: with a witness that returns a pair, the cut is wrong beyond the first block *)
Ltac rcase E := repeat (cbn -[mset] in E; unfold Rltb in E;
  match type of E with
  | context [Rlt_dec ?a ?b] => destruct (Rlt_dec a b); [try (exfalso; cbn in *; lra)|try (exfalso; cbn in *; lra)]
  | context [Req_EM_T ?a ?b] => destruct (Req_EM_T a b); [try (exfalso; cbn in *; lra)|try (exfalso; cbn in *; lra)]
  end).
Lemma ex_cut r : imi_call_pair ex_F1 1 1 (chol_init 2) (ex_pt 1 (-1)) = r ->
  exists Q' g f, r = Ok (Q', Some (g, f)) /\ f = 2 /\ g 0%nat = 1 /\ g 1%nat = 1.
Proof.
  intros E. unfold imi_call_pair, chol_factor in E. rcase E. cbn in E. subst r. do 3 eexists. split; [reflexivity|].
  unfold imi_grad. cbn. split; [field; lra|]. split; field; lra.
Qed.
Theorem C136_imi_cut_refuted :
  exists N F (Q Q' : chol R) x g f z, all_sym N F /\ chol_for (2 * N) Q /\
  imi_call_pair F N (length F) Q x = Ok (Q', Some (g, f)) /\
  pd (2 * N) (imi_mat N F z) /\ 0 < dot (2 * length F) g (fun i => z i - x i) + f.
Proof.
  assert (HF : all_sym 1 ex_F1) by (intros M [<-|[]] i j _ _; reflexivity).
  assert (HQ : chol_for (2 * 1) (@chol_init R RNum 2)) by (split; reflexivity).
  destruct (ex_cut _ eq_refl) as (Q' & g & f & E & -> & G0 & G1).
  exists 1%nat, ex_F1, (chol_init 2), Q', (ex_pt 1 (-1)), g, 2, (ex_pt 2 2).
  split; [exact HF|]. split; [exact HQ|]. split; [exact E|]. split.
  - intros u (k & Hk & Hu). rewrite ex_form.
    assert (0 <= (u 0%nat + u 1%nat) * (u 0%nat + u 1%nat)) by apply Rle_0_sqr.
    assert (H0 := Rle_0_sqr (u 0%nat)). assert (H1 := Rle_0_sqr (u 1%nat)). unfold Rsqr in *.
    assert (0 < u k * u k) by (apply Rsqr_pos_lt, Hu).
    destruct k as [|[|k]]; [| |cbn in Hk; lia]; lra.
  - unfold dot. cbn [length ex_F1 Nat.mul Nat.add rsum]. rewrite G0, G1. cbn. lra.
Qed.
Print Assumptions C136_imi_cut_refuted.

(** when the factorisation stops inside the first block (Q.p[1] <= N), the cut is valid *)
Theorem C136_imi_cut_partial :
  forall N F (Q : chol R) x, all_sym N F -> chol_for (2 * N) Q ->
  exists Q' c, imi_call_pair F N (length F) Q x = Ok (Q', c) /\ chol_for (2 * N) Q' /\
    (c = None <-> pd (2 * N) (imi_mat N F x)) /\
    forall g f, c = Some (g, f) -> 0 <= f /\
      ((snd (c_p Q') <= N)%nat -> forall z, psd (2 * N) (imi_mat N F z) -> dot (2 * length F) g (fun i => z i - x i) + f <= 0).
Proof.
  intros N F Q x HF HQ. destruct (imi_core N F Q x HF HQ) as (Q1 & b & E & HQ1 & Hb & Hc).
  unfold imi_call_pair. rewrite E. cbn [bind]. destruct b.
  - exists Q1, None. split; [reflexivity|]. split; [exact HQ1|]. split; [|discriminate]. split; [intros _; apply Hb; reflexivity|reflexivity].
  - destruct Hc as (Q2 & ep & e & Hw & HQ2 & Hep & He & Hp & Hq); [reflexivity|]. rewrite Hw. cbn [bind].
    do 2 eexists. split; [reflexivity|]. split; [exact HQ2|]. split; [split; [discriminate|intros H; apply Hb in H; discriminate]|].
    intros g f [= <- <-]. split; [exact Hep|]. rewrite Hp. cbn [snd]. intros HeN z Hz.
    set (v := c_v Q2) in *. set (n := length F).
    assert (Hbf : forall y, bf e (imi_mat N F y) v v = rsum n (fun k => bf e (nth k F (fun _ _ => 0)) v v * y k)).
    { intros y. rewrite (bf_mext e _ (lin_mat F y)); [exact (bf_lin_mat e 0 F y v)|].
      intros i j Hi Hj. unfold imi_mat. destruct (Nat.ltb_spec i N), (Nat.ltb_spec j N); try lia. reflexivity. }
    assert (Hpz : 0 <= bf e (imi_mat N F z) v v) by (apply (psd_blk (2 * N) 0 e _ v) in Hz; [exact Hz|lia]).
    assert (Hg : forall k, (k < n)%nat -> imi_grad F N n e v k = - bf e (nth k F (fun _ _ => 0)) v v).
    { intros k Hk. unfold imi_grad. destruct (Nat.ltb_spec e N).
      - destruct (Nat.ltb_spec k n); [|lia]. reflexivity.
      - destruct (Nat.ltb_spec k n); [|lia]. assert (e = N) by lia. subst e. rewrite Nat.sub_diag. cbn [ndot rsum nadd nmul nopp none RNum].
        unfold bf, mvr, dot, nf. cbn [nzero RNum]. ring. }
    assert (Hg2 : forall k, (n <= k < 2 * n)%nat -> imi_grad F N n e v k = 0).
    { intros k Hk. unfold imi_grad. destruct (Nat.ltb_spec e N).
      - destruct (Nat.ltb_spec k n); [lia|]. reflexivity.
      - destruct (Nat.ltb_spec k n); [lia|]. assert (e = N) by lia. subst e. rewrite Nat.sub_diag. cbn [ndot rsum nadd nmul nopp none RNum]. ring. }
    unfold dot. rewrite (rsum_split_at (2 * n) n) by lia. rewrite (rsum_0 (2 * n - n)).
    2:{ intros k Hk. rewrite Hg2 by lia. ring. }
    rewrite (rsum_ext n _ (fun k => bf e (nth k F (fun _ _ => 0)) v v * x k - bf e (nth k F (fun _ _ => 0)) v v * z k)).
    2:{ intros k Hk. rewrite Hg by exact Hk. ring. }
    rewrite rsum_minus, <- !Hbf. lra.
Qed.
Print Assumptions C136_imi_cut_partial.

(** ** C137: sdp_oracle never reports an improvement *)
Theorem C137_sdp_call : forall (A : Type) (N : Num A) (O : Type) (c : nat -> A) n (o : O) x t,
  (nltb nzero (nsub (ndot n c x) t) = true -> sdp_call c n o x t = Ok (o, ((c, nsub (ndot n c x) t), None))) /\
  (nltb nzero (nsub (ndot n c x) t) = false -> sdp_call c n o x t = Raise AttributeError).
Proof. intros. unfold sdp_call. split; intros ->; reflexivity. Qed.
Print Assumptions C137_sdp_call.
Theorem C137_sdp_never_solves :
  forall (A : Type) (N : Num A) (St X C Sc O : Type) (sp : space St X (nat -> A) C Sc) (conv : @gcut A -> C) ltb tneq (c : nat -> A) n
         max_it tol (o : O) st t tr o' st' xb t' info,
  cutting_plane_dc sp ltb tneq (fun o x t => ' (o1, (cut, t1)) <- sdp_call c n o x t ;; Ok (o1, (conv cut, t1))) max_it tol o st t
    = Ok (tr, o', st', (xb, t', info)) ->
  xb = None /\ t' = t /\ forall ev, In ev tr -> nltb nzero (nsub (ndot n c (d_x ev)) t) = true.
Proof.
  intros A N St X C Sc O sp conv ltb tneq c n max_it tol o st t tr o' st' xb t' info H.
  destruct (C04_dc_last_improvement _ _ _ _ _ _ _ sp ltb tneq _ max_it tol o st t tr o' st' xb t' info H) as (Hrep & Hx & _).
  assert (K : forall ev, In ev tr -> d_t1 ev = None /\ nltb nzero (nsub (ndot n c (d_x ev)) t) = true).
  { clear -Hrep. induction Hrep as [|? ? ? c0 t1 o1 st1 s q tr0 ? ? ? Ho ? Hr IH]; [intros ? []|].
    apply bind_ok in Ho as ([o2 [cut t2]] & Ho & Ho2). injection Ho2 as <- <- <-. unfold sdp_call in Ho.
    match type of Ho with (if ?b then _ else _) = _ => destruct b eqn:Eb end; [|discriminate]. injection Ho as <- <- <-.
    cbn [best] in IH. intros ev [<-|Hin]; [split; [reflexivity|exact Eb]|apply IH, Hin]. }
  destruct Hx as [(_ & -> & ->)|(tr1 & ev & tr2 & -> & _ & Hev & _)].
  - split; [reflexivity|]. split; [reflexivity|]. intros ev Hin. apply K, Hin.
  - exfalso. destruct (K ev) as [K1 _]; [apply in_or_app; right; left; reflexivity|]. congruence.
Qed.
Print Assumptions C137_sdp_never_solves.
Example C137_ex : @sdp_call QArith_base.Q QNum unit (fun _ => 1%Q) 2 tt (fun _ => 3%Q) 4%Q = Ok (tt, ((fun _ => 1%Q, 2%Q), None)) /\
  @sdp_call QArith_base.Q QNum unit (fun _ => 1%Q) 2 tt (fun _ => 1%Q) 4%Q = Raise AttributeError.
Proof. split; reflexivity. Qed.

(** ** C138: rank1_oracle.evaluate *)
Fixpoint lsum {X} (f : X -> R) (l : list X) : R := match l with [] => 0 | a :: r => f a + lsum f r end.
Lemma lsum_app {X} (f : X -> R) l1 l2 : lsum f (l1 ++ l2) = lsum f l1 + lsum f l2.
Proof. induction l1 as [|a l1 IH]; cbn; [ring|]. rewrite IH. ring. Qed.
Lemma rsum_nth {X} (f : X -> R) d l : rsum (length l) (fun k => f (nth k l d)) = lsum f l.
Proof. induction l as [|a l IH]; [reflexivity|]. cbn [length]. rewrite rsum_shift. cbn [nth lsum]. rewrite IH. reflexivity. Qed.
Lemma lsum_seq f n : forall s, lsum f (seq s n) = rsum n (fun d => f (s + d)%nat).
Proof.
  induction n as [|n IH]; intros s; [reflexivity|]. cbn [seq lsum]. rewrite IH, rsum_shift, Nat.add_0_r. f_equal.
  apply rsum_ext. intros k _. f_equal. lia.
Qed.
Lemma lsum_triu N f : lsum f (triu N) = rsum N (fun i => rsum (N - i) (fun d => f (i, (i + d)%nat))).
Proof.
  unfold triu. assert (H : forall l, lsum f (flat_map (fun i => map (fun j => (i, j)) (seq i (N - i))) l) =
    lsum (fun i => rsum (N - i) (fun d => f (i, (i + d)%nat))) l).
  { induction l as [|i l IH]; [reflexivity|]. cbn [flat_map lsum]. rewrite lsum_app, IH. f_equal.
    rewrite <- (lsum_seq (fun j => f (i, j))). induction (seq i (N - i)) as [|j r IHr]; [reflexivity|]. cbn. rewrite IHr. reflexivity. }
  rewrite H. exact (lsum_seq (fun i => rsum (N - i) (fun d => f (i, (i + d)%nat))) N 0).
Qed.
Lemma double_sum (h : nat -> nat -> R) N : (forall i j, (i < N)%nat -> (j < N)%nat -> h i j = h j i) ->
  rsum N (fun i => rsum N (fun j => h i j)) =
  rsum N (fun i => rsum (N - i) (fun d => (if Nat.eqb i (i + d) then 1 else 2) * h i (i + d)%nat)).
Proof.
  induction N as [|N IH]; intros Hs; [reflexivity|]. cbn [rsum].
  replace (rsum N (fun i => rsum N (fun j => h i j) + h i N)) with
    (rsum N (fun i => rsum N (fun j => h i j)) + rsum N (fun i => h i N)) by (rewrite rsum_plus; reflexivity).
  rewrite IH by (intros; apply Hs; lia).
  replace (S N - N)%nat with 1%nat by lia. cbn [rsum]. rewrite Nat.add_0_r, Nat.eqb_refl.
  rewrite (rsum_ext N (fun i => rsum (S N - i) _)
     (fun i => rsum (N - i) (fun d => (if Nat.eqb i (i + d) then 1 else 2) * h i (i + d)%nat) + 2 * h i N)).
  2:{ intros i Hi. replace (S N - i)%nat with (S (N - i)) by lia. cbn [rsum]. replace (i + (N - i))%nat with N by lia.
      destruct (Nat.eqb_spec i N); [lia|]. reflexivity. }
  rewrite rsum_plus, rsum_scal_l. rewrite (rsum_ext N (fun j => h N j) (fun i => h i N)) by (intros; apply Hs; lia). ring.
Qed.
Lemma r1_trace N M G : sym N M -> sym N G ->
  dot (length (triu N)) (r1_c N M) (fun k => let p := nth k (triu N) (0, 0)%nat in G (fst p) (snd p)) =
  rsum N (fun i => rsum N (fun j => M i j * G i j)).
Proof.
  intros HM HG. unfold dot, r1_c. cbn zeta.
  rewrite (rsum_nth (fun p => r1_w p * M (fst p) (snd p) * G (fst p) (snd p)) (0, 0)%nat (triu N)).
  rewrite lsum_triu, double_sum by (intros i j Hi Hj; rewrite (HM i j Hi Hj), (HG i j Hi Hj); reflexivity).
  apply rsum_ext. intros i _. apply rsum_ext. intros d _. unfold r1_w. cbn [fst snd none nadd RNum].
  destruct (Nat.eqb i (i + d)); ring.
Qed.

(** z holds the upper triangle of G row by row *)
Definition packs (N : nat) (G : nat -> nat -> R) (z : nat -> R) : Prop :=
  forall k, (k < length (triu N))%nat -> z k = G (fst (nth k (triu N) (0, 0)%nat)) (snd (nth k (triu N) (0, 0)%nat)).
Definition trace_prod (N : nat) (M G : nat -> nat -> R) : R := rsum N (fun i => rsum N (fun j => M i j * G i j)).
Theorem C138_rank1_only_trace_cuts :
  forall N M i_diag G x t restart, sym N M -> sym N G -> packs N G x ->
  let n := length (triu N) in
  (((restart < 2)%nat /\ (trace_prod N M G < 1 \/ 2 < trace_prod N M G)) ->
     exists g f0 f1, r1_eval N M i_diag x t restart = Ok ((g, BArr [f0; f1]), t, x, restart) /\ 0 < f0 <= f1 /\
       forall Gz z, sym N Gz -> packs N Gz z ->
         (1 <= trace_prod N M Gz <= 2 <->
          dot n g (fun k => z k - x k) + f0 <= 0 <= dot n g (fun k => z k - x k) + f1)) /\
  (~ ((restart < 2)%nat /\ (trace_prod N M G < 1 \/ 2 < trace_prod N M G)) ->
     r1_eval N M i_diag x t restart = Raise IndexError \/ r1_eval N M i_diag x t restart = Raise TypeError).
Proof.
  intros N M i_diag G x t restart HM HG Hp n.
  assert (Ht : forall G z, sym N G -> packs N G z -> dot n (r1_c N M) z = trace_prod N M G).
  { intros G0 z HG0 Hz. unfold trace_prod. rewrite <- (r1_trace N M G0 HM HG0). unfold dot. apply rsum_ext. intros k Hk.
    rewrite (Hz k Hk). reflexivity. }
  assert (Hx := Ht G x HG Hp).
  assert (Hd : forall z, dot n (r1_c N M) (fun k => z k - x k) = dot n (r1_c N M) z - dot n (r1_c N M) x).
  { intros z. unfold dot. rewrite <- rsum_minus. apply rsum_ext. intros. ring. }
  assert (Hd2 : forall z, dot n (fun k => - r1_c N M k) z = - dot n (r1_c N M) z).
  { intros z. unfold dot. rewrite <- rsum_opp. apply rsum_ext. intros. ring. }
  unfold r1_eval. fold n. cbn [ndot nltb nsub nadd nopp none RNum]. fold (dot n (r1_c N M) x). rewrite Hx. unfold Rltb.
  set (v := trace_prod N M G) in *. destruct (Nat.ltb_spec restart 2) as [Hr|Hr].
  - destruct (Rlt_dec (1 + 1) v) as [H2|H2].
    + split; [|intros H; exfalso; apply H; split; [exact Hr|lra]]. intros _. do 3 eexists. split; [reflexivity|].
      split; [lra|]. intros Gz z HGz Hz. rewrite Hd, Hx, (Ht Gz z HGz Hz). lra.
    + destruct (Rlt_dec v 1) as [H1|H1].
      * split; [|intros H; exfalso; apply H; split; [exact Hr|lra]]. intros _. do 3 eexists. split; [reflexivity|].
        split; [lra|]. intros Gz z HGz Hz. rewrite Hd2, Hd, Hx, (Ht Gz z HGz Hz). lra.
      * split; [intros [_ [H|H]]; lra|]. intros _. destruct (r1_diag _ _ _ _ _); auto.
  - split; [intros [H _]; lia|]. intros _. right. reflexivity.
Qed.
Print Assumptions C138_rank1_only_trace_cuts.
Example C138_ex : packs 2 (fun i j => INR (i + j + 1)) (fun k => INR (S k)) /\
  trace_prod 2 (fun i j => if Nat.eqb i j then 1 else 0) (fun i j => INR (i + j + 1)) = 4.
Proof.
  split; [|unfold trace_prod; cbn; ring].
  intros k Hk. cbn in Hk. destruct k as [|[|[|k]]]; [reflexivity|reflexivity|reflexivity|lia].
Qed.

(** which fault: with the trace in [1, 2] a diagonal entry above t gives the IndexError of line 55, otherwise the
    TypeError of line 60, 63 or 89 *)
Lemma r1_set_miss l : forall k (x : nat -> R) G a b, ~ In (a, b) l -> r1_set l k x G a b = G a b.
Proof.
  induction l as [|[i j] l IH]; intros k x G a b H; [reflexivity|]. cbn [r1_set]. rewrite IH by (intros X; apply H; right; exact X).
  destruct (Nat.eqb_spec a i) as [->|]; [|reflexivity]. destruct (Nat.eqb_spec b j) as [->|]; [|reflexivity]. elim H. left. reflexivity.
Qed.
Lemma r1_set_hit l : forall k (x : nat -> R) G m a b, NoDup l -> nth_error l m = Some (a, b) -> r1_set l k x G a b = x (k + m)%nat.
Proof.
  induction l as [|[i j] l IH]; intros k x G m a b Hn Hm; [destruct m; discriminate Hm|]. inversion Hn as [|? ? N1 N2]; subst.
  cbn [r1_set]. destruct m as [|m].
  - cbn in Hm. assert (i = a /\ j = b) as [-> ->] by (split; congruence). rewrite r1_set_miss by exact N1. rewrite !Nat.eqb_refl, Nat.add_0_r. reflexivity.
  - rewrite (IH (S k) x _ m a b N2 Hm). f_equal. lia.
Qed.
Lemma in_triu N i j : In (i, j) (triu N) <-> (i <= j < N)%nat.
Proof.
  unfold triu. rewrite in_flat_map. split.
  - intros (i0 & H1 & H2). apply in_map_iff in H2 as (j0 & E & H2). apply in_seq in H1. apply in_seq in H2. assert (i0 = i /\ j0 = j) as [-> ->] by (split; congruence). lia.
  - intros H. exists i. split; [apply in_seq; lia|]. apply in_map_iff. exists j. split; [reflexivity|]. apply in_seq. lia.
Qed.
Lemma triu_nodup N : NoDup (triu N).
Proof.
  unfold triu. assert (H : forall l, NoDup l -> NoDup (flat_map (fun i => map (fun j => (i, j)) (seq i (N - i))) l)).
  { induction 1 as [|i l Hi Hl IH]; [constructor|]. cbn [flat_map].
    assert (A : NoDup (map (fun j => (i, j)) (seq i (N - i)))).
    { assert (X := seq_NoDup (N - i) i). induction X as [|j r Hj Hr IHr]; cbn [map]; constructor; [|exact IHr].
      intros C. apply in_map_iff in C as (j' & E & C). assert (j' = j) by congruence. subst. apply Hj, C. }
    revert A. generalize (seq i (N - i)). intros r. induction r as [|j r IHr]; intros A; [exact IH|]. cbn [map app] in *. inversion A as [|? ? A1 A2]; subst.
    constructor; [|apply IHr, A2]. rewrite in_app_iff. intros [C|C]; [apply A1, C|].
    apply in_flat_map in C as (i' & C1 & C2). apply in_map_iff in C2 as (j' & E & _). assert (i' = i) by congruence. subst. apply Hi, C1. }
  apply H, seq_NoDup.
Qed.
Lemma r1_mat_diag N G x i : packs N G x -> (i < N)%nat -> r1_mat N x i i = G i i.
Proof.
  intros Hp Hi. assert (Hin : In (i, i) (triu N)) by (apply in_triu; lia). apply In_nth_error in Hin as [m Hm].
  assert (Hl : (m < length (triu N))%nat) by (apply nth_error_Some; congruence).
  unfold r1_mat. rewrite (r1_set_hit (map (fun p => (snd p, fst p)) (triu N)) 0 x _ m i i).
  - cbn [Nat.add]. rewrite (Hp m Hl). apply (nth_error_nth _ _ (0, 0)%nat) in Hm. rewrite Hm. reflexivity.
  - assert (X := triu_nodup N). clear - X. induction X as [|[a b] r Hj Hr IHr]; cbn [map]; constructor; [|exact IHr].
    intros C. apply in_map_iff in C as ([a' b'] & E & C). cbn in E. assert (a' = a /\ b' = b) as [-> ->] by (split; congruence). apply Hj, C.
  - rewrite nth_error_map, Hm. reflexivity.
Qed.
Lemma r1_diag_spec (G : nat -> nat -> R) t N : forall cnt k, (k < N)%nat ->
  r1_diag cnt k N G t = true <-> exists m, (1 <= m <= cnt)%nat /\ t < G ((k + m) mod N)%nat ((k + m) mod N)%nat.
Proof.
  induction cnt as [|cnt IH]; intros k Hk; cbn [r1_diag]; [split; [discriminate|intros (m & Hm & _); lia]|].
  set (k1 := if Nat.eqb (k + 1) N then 0%nat else (k + 1)%nat).
  assert (K1 : k1 = ((k + 1) mod N)%nat).
  { unfold k1. destruct (Nat.eqb_spec (k + 1) N) as [E|E]; [rewrite E, Nat.mod_same by lia; reflexivity|rewrite Nat.mod_small by lia; reflexivity]. }
  assert (Hk1 : (k1 < N)%nat) by (rewrite K1; apply Nat.mod_upper_bound; lia).
  cbn [nltb RNum]. unfold Rltb. destruct (Rlt_dec t (G k1 k1)) as [H|H].
  - split; [|reflexivity]. intros _. exists 1%nat. rewrite <- K1. split; [lia|exact H].
  - rewrite (IH k1 Hk1).
    assert (Ek : forall m, ((k1 + m) mod N = (k + S m) mod N)%nat).
    { intros m. rewrite K1, Nat.add_mod_idemp_l by lia. f_equal. lia. }
    split.
    + intros (m & Hm & Hg). exists (S m). rewrite <- Ek. split; [lia|exact Hg].
    + intros (m & Hm & Hg). destruct m as [|m]; [lia|]. destruct (Nat.eq_dec m 0) as [->|Hm0]; [rewrite <- K1 in Hg; contradiction|].
      exists m. rewrite Ek. split; [lia|exact Hg].
Qed.
Theorem C138_rank1_which_fault :
  forall N M i_diag G x t restart, sym N M -> sym N G -> packs N G x -> (i_diag < N)%nat ->
  ((2 <= restart)%nat -> r1_eval N M i_diag x t restart = Raise TypeError) /\
  ((restart < 2)%nat -> 1 <= trace_prod N M G <= 2 ->
     ((exists i, (i < N)%nat /\ t < G i i) -> r1_eval N M i_diag x t restart = Raise IndexError) /\
     ((forall i, (i < N)%nat -> G i i <= t) -> r1_eval N M i_diag x t restart = Raise TypeError)).
Proof.
  intros N M i_diag G x t restart HM HG Hp Hi.
  assert (Hx : dot (length (triu N)) (r1_c N M) x = trace_prod N M G).
  { unfold trace_prod. rewrite <- (r1_trace N M G HM HG). unfold dot. apply rsum_ext. intros k Hk. rewrite (Hp k Hk). reflexivity. }
  split.
  - intros Hr. unfold r1_eval. destruct (Nat.ltb_spec restart 2); [lia|reflexivity].
  - intros Hr Hv. unfold r1_eval. destruct (Nat.ltb_spec restart 2); [|lia]. cbn [ndot nltb nsub nadd nopp none RNum].
    fold (dot (length (triu N)) (r1_c N M) x). rewrite Hx. unfold Rltb.
    destruct (Rlt_dec (1 + 1) (trace_prod N M G)); [lra|]. destruct (Rlt_dec (trace_prod N M G) 1); [lra|].
    assert (DS := r1_diag_spec (r1_mat N x) t N N i_diag Hi). split.
    + intros (i & Hin & Hg). replace (r1_diag N i_diag N (r1_mat N x) t) with true; [reflexivity|]. symmetry. apply DS.
      exists (if (i_diag <? i)%nat then i - i_diag else i + N - i_diag)%nat.
      replace ((i_diag + (if (i_diag <? i)%nat then i - i_diag else i + N - i_diag)) mod N)%nat with i.
      * rewrite (r1_mat_diag N G x i Hp Hin). split; [|exact Hg]. destruct (Nat.ltb_spec i_diag i); lia.
      * destruct (Nat.ltb_spec i_diag i).
        -- replace (i_diag + (i - i_diag))%nat with i by lia. rewrite Nat.mod_small by lia. reflexivity.
        -- replace (i_diag + (i + N - i_diag))%nat with (i + 1 * N)%nat by lia. rewrite Nat.mod_add by lia. rewrite Nat.mod_small by lia. reflexivity.
    + intros Hg. destruct (r1_diag N i_diag N (r1_mat N x) t) eqn:D; [|reflexivity]. exfalso. destruct DS as [DS _]. destruct (DS eq_refl) as (m & _ & Hm).
      rewrite r1_mat_diag with (G := G) in Hm by (try exact Hp; apply Nat.mod_upper_bound; lia).
      assert (B := Hg ((i_diag + m) mod N)%nat ltac:(apply Nat.mod_upper_bound; lia)). lra.
Qed.
Print Assumptions C138_rank1_which_fault.
Example C138_fault_ex : packs 2 (fun i j => if Nat.eqb i j then 1 else 0) (fun k => if Nat.eqb k 1 then 0 else 1) /\
  trace_prod 2 (fun i j => if Nat.eqb i j then 1 else 0) (fun i j => if Nat.eqb i j then 1 else 0) = 2.
Proof. split; [|unfold trace_prod; cbn; ring]. intros k Hk. cbn in Hk. destruct k as [|[|[|k]]]; [reflexivity|reflexivity|reflexivity|lia]. Qed.
