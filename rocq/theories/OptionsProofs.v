(* Proofs about Options.v. *)
From Coq Require Import Reals Lra.
From Flocq Require Import Core Relative IEEE754.BinarySingleNaN.
From Verif Require Import Options.
From Coq Require Import Lia.

Local Open Scope R_scope.
Definition rnd (x : R) : R := round radix2 (FLT_exp (-1074) 53) ZnearestE x.
Local Notation generic := (generic_format radix2 (FLT_exp (-1074) 53)).
Definition NR (n : N) : R := IZR (Z.of_N n).

Local Instance p53 : Prec_gt_0 53 := eq_refl.

Lemma rnd_le x y : x <= y → rnd x <= rnd y.
Proof. apply round_le; typeclasses eauto. Qed.
Lemma rnd_generic x : generic x → rnd x = x.
Proof. apply round_generic; typeclasses eauto. Qed.
Lemma rnd_0 : rnd 0 = 0.
Proof. apply round_0; typeclasses eauto. Qed.
Lemma rnd_pos x : 0 <= x → 0 <= rnd x.
Proof. rewrite <- rnd_0 at 2. apply rnd_le. Qed.

Lemma generic_int (z : Z) : (Z.abs z <= 2 ^ 53)%Z → generic (IZR z).
Proof.
  intros H. destruct (Z.eq_dec (Z.abs z) (2 ^ 53)%Z) as [E|E].
  - assert (z = (2 ^ 53)%Z ∨ z = (- 2 ^ 53)%Z) as [->| ->] by lia.
    + change (IZR (2 ^ 53)) with (bpow radix2 53). apply generic_format_FLT_bpow; [typeclasses eauto|lia].
    + rewrite opp_IZR. apply generic_format_opp.
      change (IZR (2 ^ 53)) with (bpow radix2 53). apply generic_format_FLT_bpow; [typeclasses eauto|lia].
  - apply generic_format_FLT. exists (Float radix2 z 0); simpl; [|lia|lia].
    unfold F2R; simpl. lra.
Qed.
Lemma generic_bpow e : (-1074 <= e)%Z → generic (bpow radix2 e).
Proof. intros. apply generic_format_FLT_bpow; [typeclasses eauto|lia]. Qed.

Lemma NR_nonneg n : 0 <= NR n.
Proof. apply IZR_le. lia. Qed.
Lemma NR_lt64 n : (n < two64)%N → NR n <= bpow radix2 64.
Proof.
  intros H. change (bpow radix2 64) with (IZR (2 ^ 64)). apply IZR_le.
  unfold two64 in H. lia.
Qed.
Lemma rnd_NR_le n : (n < two64)%N → rnd (NR n) <= bpow radix2 64.
Proof.
  intros H. rewrite <- (rnd_generic (bpow radix2 64)) by (apply generic_bpow; lia).
  apply rnd_le, NR_lt64, H.
Qed.
Lemma below_emax x : 0 <= x <= bpow radix2 64 → Rabs x < bpow radix2 1024.
Proof.
  intros [H1 H2]. rewrite Rabs_pos_eq by lra. eapply Rle_lt_trans; [exact H2|].
  apply bpow_lt; lia.
Qed.

Lemma as_f64_spec n : (n < two64)%N →
  B2R (as_f64 n) = rnd (NR n) ∧ is_finite (as_f64 n) = true.
Proof.
  intros H. unfold as_f64.
  pose proof (binary_normalize_correct 53 1024 prec53 prec53_1024 mode_NE (Z.of_N n) 0 false) as C.
  cbv zeta in C. rewrite Rlt_bool_true in C.
  - destruct C as (C1 & C2 & _). split; [|exact C2]. rewrite C1. f_equal.
    unfold F2R, NR; simpl. lra.
  - replace (F2R (Float radix2 (Z.of_N n) 0)) with (NR n) by (unfold F2R, NR; simpl; lra).
    apply below_emax. split; [apply rnd_pos, NR_nonneg|apply rnd_NR_le, H].
Qed.

Lemma fmul_spec n a : (n < two64)%N → is_finite a = true → 0 <= B2R a <= 1 →
  B2R (fmul (as_f64 n) a) = rnd (rnd (NR n) * B2R a) ∧ is_finite (fmul (as_f64 n) a) = true.
Proof.
  intros H F Ha. destruct (as_f64_spec n H) as [E1 E2]. unfold fmul.
  pose proof (Bmult_correct 53 1024 prec53 prec53_1024 mode_NE (as_f64 n) a) as C.
  pose proof (rnd_NR_le n H) as L. pose proof (rnd_pos (NR n) (NR_nonneg n)) as Lp.
  rewrite Rlt_bool_true in C.
  - destruct C as (C1 & C2 & _). rewrite C1, E1. rewrite C2, E2, F. auto.
  - rewrite E1. apply below_emax.
    change (round radix2 (SpecFloat.fexp 53 1024) (round_mode mode_NE)) with rnd. split.
    + apply rnd_pos. apply Rmult_le_pos; lra.
    + rewrite <- (rnd_generic (bpow radix2 64)) by (apply generic_bpow; lia).
      apply rnd_le. nra.
Qed.

Lemma as_u64_spec x : is_finite x = true → 0 <= B2R x →
  as_u64 x = N.min (Z.to_N (Zfloor (B2R x))) (two64 - 1).
Proof.
  intros F Hx.
  assert (Btrunc x = Zfloor (B2R x)) as E.
  { apply eq_IZR. rewrite (Btrunc_correct 53 1024 prec53_1024). rewrite round_FIX_IZR.
    now rewrite Ztrunc_floor. }
  destruct x as [sx|sx| |sx mx ex Hb]; try discriminate; rewrite <- E; reflexivity.
Qed.

Lemma two53 : bpow radix2 53 = 9007199254740992.
Proof. simpl. lra. Qed.

Lemma hot_budget_floor n a : (n < two64)%N → is_finite a = true → 0 <= B2R a <= 1 →
  hot_budget n a = N.min (Z.to_N (Zfloor (rnd (rnd (NR n) * B2R a)))) (two64 - 1).
Proof.
  intros H F Ha. destruct (fmul_spec n a H F Ha) as [E1 E2]. unfold hot_budget.
  rewrite as_u64_spec, E1; auto.
  rewrite E1. apply rnd_pos, Rmult_le_pos; [apply rnd_pos, NR_nonneg|lra].
Qed.
Lemma floor_le_N x n : x <= NR n → (Z.to_N (Zfloor x) <= n)%N.
Proof.
  intros H. assert (Zfloor x <= Z.of_N n)%Z; [|lia].
  apply le_IZR. eapply Rle_trans; [apply Zfloor_lb|exact H].
Qed.

Lemma hot_le_small n a : (n <= 2 ^ 53)%N → is_finite a = true → 0 <= B2R a <= 1 →
  (hot_budget n a <= n)%N.
Proof.
  intros H F Ha. assert (n < two64)%N as H64 by (unfold two64; lia).
  rewrite hot_budget_floor by auto.
  etrans; [apply N.le_min_l|]. apply floor_le_N.
  assert (generic (NR n)) as G by (apply generic_int; lia).
  rewrite (rnd_generic (NR n)) by exact G. rewrite <- (rnd_generic (NR n)) at 2 by exact G.
  apply rnd_le. pose proof (NR_nonneg n). nra.
Qed.

Lemma rel_up x : bpow radix2 (-1022) <= x → rnd x <= x * (1 + bpow radix2 (-53)).
Proof.
  intros H. assert (0 < bpow radix2 (-1022)) by apply bpow_gt_0.
  pose proof (relative_error_N_FLT radix2 (-1074) 53 eq_refl (λ x, negb (Z.even x)) x) as E.
  rewrite (Rabs_pos_eq x) in E by lra. specialize (E H).
  assert (/ 2 * bpow radix2 (- (53) + 1) = bpow radix2 (-53)) as B by (simpl; lra).
  rewrite B in E. change (round radix2 (FLT_exp (-1074) 53) ZnearestE x) with (rnd x) in E.
  apply Rabs_le_inv in E. lra.
Qed.

Lemma hot_le_any n a : (n < two64)%N → is_finite a = true → 0 <= B2R a <= 1 - bpow radix2 (-52) →
  (hot_budget n a <= n)%N.
Proof.
  intros H F Ha. assert (0 < bpow radix2 (-52)) as B52 by apply bpow_gt_0.
  rewrite hot_budget_floor by (auto; lra).
  etrans; [apply N.le_min_l|]. apply floor_le_N.
  destruct (decide (n = 0%N)) as [->|Hn].
  { unfold NR at 1. simpl. rewrite rnd_0, Rmult_0_l, rnd_0. apply NR_nonneg. }
  assert (1 <= NR n) as H1 by (apply IZR_le; lia).
  assert (bpow radix2 (-1022) <= 1) as Hb by (change 1 with (bpow radix2 0); apply bpow_le; lia).
  assert (0 < bpow radix2 (-1022)) as Hb0 by apply bpow_gt_0.
  pose proof (rel_up (NR n) ltac:(lra)) as R1.
  pose proof (rnd_pos (NR n) (NR_nonneg n)) as R0.
  set (y := rnd (NR n) * B2R a) in *.
  destruct (Rle_or_lt (bpow radix2 (-1022)) y) as [Hy|Hy].
  - pose proof (rel_up y Hy) as R2.
    assert (bpow radix2 (-53) = / 9007199254740992) as E53 by (simpl; lra).
    assert (bpow radix2 (-52) = / 4503599627370496) as E52 by (simpl; lra).
    rewrite E53 in *. rewrite E52 in *.
    assert (y <= NR n * (1 + / 9007199254740992) * (1 - / 4503599627370496)) as Y.
    { unfold y. apply Rmult_le_compat; lra. }
    eapply Rle_trans; [exact R2|].
    eapply Rle_trans; [apply Rmult_le_compat_r; [lra|exact Y]|]. lra.
  - eapply Rle_trans; [|exact H1]. eapply Rle_trans; [|exact Hb].
    rewrite <- (rnd_generic (bpow radix2 (-1022))) by (apply generic_bpow; lia).
    apply rnd_le. lra.
Qed.

(* the budget is close to the requested portion *)
Lemma hot_near n a : (n <= 2 ^ 52)%N → is_finite a = true → 0 <= B2R a <= 1 →
  NR n * B2R a - 3 / 2 <= NR (hot_budget n a) <= NR n * B2R a + 1 / 2.
Proof.
  intros H F Ha. assert (n < two64)%N as H64 by (unfold two64; lia).
  pose proof (hot_le_small n a ltac:(lia) F Ha) as Hs.
  rewrite hot_budget_floor in * by auto.
  assert (generic (NR n)) as G by (apply generic_int; lia).
  rewrite (rnd_generic (NR n)) in * by exact G.
  pose proof (NR_nonneg n) as Hn.
  assert (NR n <= bpow radix2 52) as Hn2.
  { change (bpow radix2 52) with (IZR (2 ^ 52)). apply IZR_le. lia. }
  set (x := NR n * B2R a) in *.
  assert (0 <= x <= bpow radix2 52) as Hx by (unfold x; split; nra).
  pose proof (rnd_pos x ltac:(lra)) as Rp.
  assert (rnd x <= bpow radix2 52) as Rx.
  { rewrite <- (rnd_generic (bpow radix2 52)) by (apply generic_bpow; lia). apply rnd_le; lra. }
  assert (Rabs (rnd x - x) <= / 2) as E.
  { eapply Rle_trans; [apply error_le_half_ulp; typeclasses eauto|].
    assert (ulp radix2 (FLT_exp (-1074) 53) x <= 1); [|lra].
    eapply Rle_trans; [apply (ulp_le radix2 (FLT_exp (-1074) 53) x (bpow radix2 52)); rewrite !Rabs_pos_eq; lra|].
    rewrite ulp_bpow. simpl. lra. }
  apply Rabs_le_inv in E.
  assert (N.min (Z.to_N (Zfloor (rnd x))) (two64 - 1) = Z.to_N (Zfloor (rnd x))) as M.
  { apply N.min_l. assert (Zfloor (rnd x) <= 2 ^ 52)%Z; [|unfold two64; lia].
    apply le_IZR. eapply Rle_trans; [apply Zfloor_lb|]. exact Rx. }
  rewrite M. unfold NR. rewrite Z2N.id.
  - pose proof (Zfloor_lb (rnd x)). pose proof (Zfloor_ub (rnd x)). unfold x in *. lra.
  - apply Zfloor_lub. exact Rp.
Qed.

(* ---- validation ---- *)
Lemma one_R : B2R f64_one = 1.
Proof. unfold f64_one, B2R, F2R; simpl. lra. Qed.
Lemma accepts_iff (x : f64) : Beqb (clamp01 x) x = true ↔ is_finite x = true ∧ 0 <= B2R x <= 1.
Proof.
  destruct (is_finite x) eqn:F.
  - unfold clamp01. rewrite (Bltb_correct 53 1024 x f64_zero) by auto.
    change (B2R f64_zero) with 0. pose proof one_R as O.
    destruct (Rlt_bool_spec (B2R x) 0) as [L|L].
    + rewrite (Bltb_correct 53 1024 f64_one f64_zero) by auto.
      rewrite Rlt_bool_false by (rewrite O; simpl; lra).
      rewrite (Beqb_correct 53 1024 f64_zero x) by auto. rewrite Req_bool_false by (simpl; lra).
      split; [discriminate|intros [_ ?]; lra].
    + rewrite (Bltb_correct 53 1024 f64_one x) by auto. rewrite O.
      destruct (Rlt_bool_spec 1 (B2R x)) as [L'|L'].
      * rewrite (Beqb_correct 53 1024 f64_one x) by auto. rewrite Req_bool_false by lra.
        split; [discriminate|intros [_ ?]; lra].
      * rewrite (Beqb_correct 53 1024 x x) by auto. rewrite Req_bool_true by lra. split; auto.
  - split; [|intros [? _]; discriminate]. intros E. exfalso.
    destruct x as [?|[|]| |?]; try discriminate; vm_compute in E; discriminate.
Qed.
Lemma default_hot_R : 0 <= B2R default_hot <= 1 - bpow radix2 (-52).
Proof. unfold default_hot, B2R, F2R; simpl. lra. Qed.

(* ---- builder ---- *)
Definition acceptable (x : f64) : Prop := is_finite x = true ∧ 0 <= B2R x <= 1.
Definition allocs (l : list setting) : list f64 :=
  omap (λ s, match s with HotAlloc x | GhostAlloc x => Some x | _ => None end) l.
Definition shards_set (l : list setting) := omap (λ s, match s with Shards n => Some n | _ => None end) l.
Definition items_set (l : list setting) := omap (λ s, match s with Items n => Some n | _ => None end) l.
Definition weight_set (l : list setting) := omap (λ s, match s with Weight n => Some n | _ => None end) l.
Definition hot_set (l : list setting) := omap (λ s, match s with HotAlloc n => Some n | _ => None end) l.
Definition ghost_set (l : list setting) := omap (λ s, match s with GhostAlloc n => Some n | _ => None end) l.
Definition final {A} (o : option A) (l : list A) : option A := match last l with Some x => Some x | None => o end.
Lemma final_cons {A} (o : option A) x l : final o (x :: l) = final (Some x) l.
Proof. unfold final. destruct l as [|y l]; [reflexivity|]. rewrite last_cons_cons.
  destruct (last (y :: l)) eqn:E; [reflexivity|]. apply last_None in E. discriminate. Qed.

Lemma with_alloc_ok x : acceptable x → Beqb (clamp01 x) x = true.
Proof. apply accepts_iff. Qed.
Lemma with_alloc_fail x : ¬ acceptable x → Beqb (clamp01 x) x = false.
Proof. intros H. apply not_true_iff_false. now rewrite accepts_iff. Qed.

Lemma set_options_ok l b : Forall acceptable (allocs l) →
  set_options b l = Ok (Bld (final (b_shards b) (shards_set l)) (final (b_hot b) (hot_set l))
    (final (b_ghost b) (ghost_set l)) (final (b_items b) (items_set l)) (final (b_weight b) (weight_set l))).
Proof.
  revert b. induction l as [|s l IH]; intros b H.
  { destruct b; reflexivity. }
  cbn [set_options]. destruct s as [n|n|n|x|x]; csimpl in H; cbn [set_option rbind].
  1-3: rewrite IH by exact H; csimpl; rewrite !final_cons; reflexivity.
  all: apply Forall_cons in H as [Hx H]; unfold with_hot, with_ghost; rewrite with_alloc_ok by exact Hx;
    simpl ensure; cbn [rbind]; rewrite IH by exact H; csimpl; rewrite !final_cons; reflexivity.
Qed.
Lemma set_options_fail l b : ¬ Forall acceptable (allocs l) → set_options b l = Fail Panic.
Proof.
  revert b. induction l as [|s l IH]; intros b H.
  { destruct H. constructor. }
  cbn [set_options]. destruct s as [n|n|n|x|x]; csimpl in H; cbn [set_option rbind].
  1-3: apply IH, H.
  all: destruct (Beqb (clamp01 x) x) eqn:E; unfold with_hot, with_ghost; rewrite E; simpl ensure; cbn [rbind];
    [apply IH; intros H'; apply H; constructor; [apply accepts_iff, E|exact H']|reflexivity].
Qed.
