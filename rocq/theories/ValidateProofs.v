(* The self-check succeeds whenever the representation invariant holds. *)
From Verif Require Export Validate SeqProofs5.

Section vslab.
Context {T : Type}.
Implicit Types (s : slab T) (e : snode T) (fl : list nat).
Lemma collect_free_ok s fl : ∀ fuel nf seen, fchain s nf fl → (∀ t, t ∈ fl → items s !! t = Some None) → length fl ≤ fuel →
  collect_free fuel s nf seen = Ok (rev fl ++ seen).
Proof.
  induction fl as [|f fl IH]; intros fuel nf seen Hc Hd Hl; simpl in Hc.
  - subst nf. destruct fuel; simpl; by rewrite bool_decide_eq_true_2.
  - destruct Hc as (-> & n & Hn & Hc). pose proof (Hd f ltac:(left)) as Hf.
    assert (f < length (ents s)) as Hlt. { rewrite <-items_length. by eapply lookup_lt_Some. }
    destruct fuel as [|fuel]; simpl in Hl; [lia|]. simpl. rewrite bool_decide_eq_false_2 by lia.
    unfold at_. unfold nx in Hn. rewrite items_lookup in Hf. destruct (ents s !! f) as [e|] eqn:He; [|done]. simpl in *.
    injection Hn as Hn. injection Hf as Hf. unfold is_live. rewrite Hf. simpl. rewrite Hn.
    rewrite IH; [by rewrite <-app_assoc|done|intros; apply Hd; by right|lia].
Qed.
Lemma check_live_ok s fl' fl : (∀ t, t ∈ fl' ↔ t ∈ fl) → (∀ t, items s !! t = Some None ↔ t ∈ fl) →
  (∀ t, live s t → ∃ p n, pv s t = Some p ∧ nx s t = Some n ∧ live s p ∧ live s n) →
  ∀ es i, (∀ j e, es !! j = Some e → ents s !! (i + j) = Some e) → check_live fl' i es = Ok ().
Proof.
  intros Hfl Hfree Hn. induction es as [|e es IH]; intros i He; [done|]. simpl.
  assert (∀ t, live s t → negb (bool_decide (t ∈ fl')) = true) as Hnf.
  { intros t [x Ht]. rewrite bool_decide_eq_false_2; [done|]. rewrite Hfl, <-Hfree. by rewrite Ht. }
  pose proof (He 0 e eq_refl) as H0. rewrite Nat.add_0_r in H0.
  assert (check_live fl' (S i) es = Ok ()) as HI. { apply IH. intros j e' Hj. rewrite <-(He (S j) e' Hj). f_equal. lia. }
  destruct (is_live e) eqn:Hl; [|done].
  assert (live s i) as Hli. { unfold is_live in Hl. destruct (item e) as [x|] eqn:Hx; [|done]. exists x. rewrite items_lookup, H0. simpl. by rewrite Hx. }
  destruct (Hn i Hli) as (p & n & Hp & Hn' & Lp & Ln). unfold pv in Hp. unfold nx in Hn'. rewrite H0 in Hp, Hn'. simpl in Hp, Hn'. injection Hp as ->. injection Hn' as ->.
  rewrite (Hnf _ Hli), (Hnf _ Lp), (Hnf _ Ln). by simpl.
Qed.
Lemma ring_nbrs s L t : ring s L → t ∈ L → ∃ p n, pv s t = Some p ∧ nx s t = Some n ∧ p ∈ L ∧ n ∈ L.
Proof.
  intros Hr Hin. apply elem_of_list_split in Hin as (A & B & ->). pose proof (ring_rotate _ _ _ Hr) as (Hnd & Hs & Hc). simpl in Hs, Hc.
  (* the ring is t :: B ++ A *)
  destruct (B ++ A) as [|b l] eqn:E.
  - assert (lnk s t t) as [H1 H2] by (by apply Hc). exists t, t. split_and!; try done; apply elem_of_app; right; left.
  - destruct Hs as [[Hn Hb] Hs]. destruct (last (b :: l)) as [z|] eqn:Ez; [|by apply last_None in Ez].
    assert (lnk s z t) as [_ Hp]. { apply Hc; [|done]. by rewrite last_cons, Ez. }
    exists z, b. assert (∀ q, q ∈ b :: l → q ∈ A ++ t :: B) as Hq.
    { intros q. rewrite <-E, !elem_of_app, elem_of_cons. tauto. }
    split_and!; try done; apply Hq; [by apply last_Some_elem_of|left].
Qed.
Lemma nodup_bound (l : list nat) : ∀ n, NoDup l → (∀ t, t ∈ l → t < n) → length l ≤ n.
Proof.
  intros n Hnd H. assert (l ⊆+ seq 0 n) as Hs.
  { apply NoDup_submseteq; [done|]. intros t Ht. apply elem_of_seq. specialize (H t Ht). lia. }
  apply submseteq_length in Hs. by rewrite seq_length in Hs.
Qed.
End vslab.
Lemma slab_validate_ok {T R : Type} `{!EqDecision R} (s : slab T) (rs : R → list nat) fl : RI s rs fl →
  (∀ t, (∃ r, t ∈ rs r) ∨ (∀ r, t ∉ rs r)) → slab_validate s = Ok ().
Proof.
  intros HR Hdec. destruct (ri_slab _ _ _ HR) as (Hc & Hnd & Hfree). unfold slab_validate.
  assert (∀ t, t ∈ fl → items s !! t = Some None) as Hd by (intros; by apply Hfree).
  rewrite (collect_free_ok s fl); [|done|done|].
  2:{ apply nodup_bound; [done|]. intros t Ht. rewrite <-items_length. by eapply lookup_lt_Some, Hd. }
  cbn [rbind]. rewrite app_nil_r. apply (check_live_ok s (rev fl) fl); [|done| |by intros].
  - intros t. rewrite !elem_of_list_In. symmetry. apply in_rev.
  - intros t Ht. destruct (Hdec t) as [[r Hin]|Hni].
    + destruct (ring_nbrs s _ t (ri_ring _ _ _ HR r) Hin) as (p & n & ? & ? & Hp & Hn). exists p, n. split_and!; try done; eapply (ri_live _ _ _ HR); eassumption.
    + destruct (ri_self _ _ _ HR t Ht Hni) as [? ?]. by exists t, t.
Qed.

Section vshard.
Context {P : Params} (LW : Lawful P).
Notation K := (K P). Notation V := (V P). Notation shard := (shard P). Notation entry := (entry P).
Implicit Types (s : shard) (e : entry) (its : list (option entry)).
Definition part (pin : bool) (st : rstate) e : N :=
  match e with Resident r => if decide (r_state r = st) then if Bool.eqb (pinned P (r_key r) (r_val r)) pin then rweight r else 0%N else 0%N | _ => 0%N end.
Definition plus (z : tally) (its : list (option entry)) : tally :=
  Tally (t_nhot z + esum (nof Hot) its) (t_ncold z + esum (nof Cold) its) (t_nnr z + esum ghn its)
    (t_whot z + esum (part false Hot) its) (t_whotp z + esum (part true Hot) its)
    (t_wcold z + esum (part false Cold) its) (t_wcoldp z + esum (part true Cold) its).
Lemma tally_all_ok its : ∀ z, (t_whot (plus z its) < two64)%N → (t_whotp (plus z its) < two64)%N → (t_wcold (plus z its) < two64)%N → (t_wcoldp (plus z its) < two64)%N →
  tally_all z (omap id its) = Ok (plus z its).
Proof.
  induction its as [|o its IH]; intros z H1 H2 H3 H4.
  - simpl. f_equal. unfold plus, esum. simpl. rewrite !N.add_0_r. by destruct z.
  - destruct o as [e|]; [|by apply IH]. simpl. 
    assert (∃ z', tally1 z e = Ok z' ∧ plus z' its = plus z (Some e :: its)) as (z' & E & Ez).
    { destruct e as [r|p|g]; cbn [tally1].
      - unfold plus, esum in *; simpl in *. destruct (r_state r); simpl in *; repeat (rewrite decide_True in * by done || rewrite decide_False in * by done);
          destruct (pinned P (r_key r) (r_val r)); simpl in *; unfold wadd;
          (match goal with |- context [(?a <? two64)%N] => destruct (N.ltb_spec a two64); [|lia] end); cbn [rbind]; eexists; (split; [reflexivity|]); simpl; f_equal; lia.
      - eexists. split; [done|]. unfold plus, esum. simpl. f_equal; lia.
      - eexists. split; [done|]. unfold plus, esum. simpl. f_equal; lia. }
    rewrite E. cbn [rbind]. rewrite IH; rewrite ?Ez; done.
Qed.
Lemma parts st its : (esum (part false st) its + esum (part true st) its = esum (wof st) its)%N.
Proof.
  apply esum_add. intros [r| |]; simpl; try done. destruct (decide _); [|done]. destruct (pinned _ _ _); simpl; lia.
Qed.
Lemma uparts its : (esum (part false Hot) its + esum (part false Cold) its = uwsum (kvs its))%N.
Proof.
  induction its as [|o its IH]; [done|]. change (kvs (o :: its)) with (okv o ++ kvs its). unfold esum in *; simpl.
  destruct o as [[[k v st x]|p|h]|]; simpl; try exact IH. rewrite uwsum_cons.
  unfold rweight; simpl. destruct st; simpl; destruct (pinned P k v); simpl; lia.
Qed.
Lemma validate_ok ow s : Inv s → (wsum (sh_iter s) < two64)%N → (ow = true ∨ (uwsum (sh_iter s) ≤ sh_capacity s)%N) → validate ow s = Ok ().
Proof.
  intros (rs & fl & HI) Hw Ho. pose proof (i_acc _ _ _ HI) as [Aw An Ag]. unfold validate.
  rewrite (slab_validate_ok _ _ _ (i_ri _ _ _ HI)).
  2:{ intros t. destruct (decide (t ∈ rs RHot)) as [|H1]; [left; by exists RHot|]. destruct (decide (t ∈ rs RCold)) as [|H2]; [left; by exists RCold|].
      destruct (decide (t ∈ rs RGhost)) as [|H3]; [left; by exists RGhost|]. right. by intros []. }
  cbn [rbind]. set (its := its_of s) in *.
  rewrite slab_iter_items. fold (its_of s). fold its.
  rewrite sh_iter_kvs in Hw, Ho. fold its in Hw, Ho. rewrite wsum_esum in Hw.
  pose proof (parts Hot its) as PH. pose proof (parts Cold its) as PC. pose proof (uparts its) as PU.
  rewrite tally_all_ok; [|simpl; lia..]. cbn [rbind]. unfold plus. cbn [t_nhot t_ncold t_nnr t_whot t_whotp t_wcold t_wcoldp]. rewrite !N.add_0_l.
  pose proof (An Hot) as AnH. pose proof (An Cold) as AnC. pose proof (Aw Hot) as AwH. pose proof (Aw Cold) as AwC. cbn [sh_acct] in AnH, AnC, AwH, AwC.
  rewrite AnH, AnC, Ag, !N.eqb_refl. cbn [ensure rbind]. unfold wadd.
  rewrite PH, PC. destruct (N.ltb_spec (esum (wof Hot) its) two64); [|lia]. destruct (N.ltb_spec (esum (wof Cold) its) two64); [|lia]. cbn [rbind].
  rewrite AwH, AwC, !N.eqb_refl. cbn [ensure rbind]. rewrite PU.
  assert ((if ow then Ok () else let! w := if (uwsum (kvs its) <? two64)%N then Ok (uwsum (kvs its)) else if is_debug then Fail WeightOvf else Ok (uwsum (kvs its) - two64)%N in
    ensure (w <=? sh_capacity s)%N) = Ok ()) as Hx.
  { destruct ow; [done|]. destruct Ho as [|Ho]; [done|]. destruct (N.ltb_spec (uwsum (kvs its)) two64); [|lia]. cbn [rbind]. by destruct (N.leb_spec (uwsum (kvs its)) (sh_capacity s)); [|lia]. }
  rewrite Hx. cbn [rbind]. rewrite <-Ag. pose proof (i_ghost _ _ _ HI). by destruct (N.leb_spec (sh_nnr s) (sh_cap_nr s)); [|lia].
Qed.
(* and it complains about an overweight cache *)
Lemma validate_overweight s : Inv s → (wsum (sh_iter s) < two64)%N → (sh_capacity s < uwsum (sh_iter s))%N → validate false s = Fail Panic.
Proof.
  intros HI Hw Ho. pose proof (validate_ok true s HI Hw (or_introl eq_refl)) as H. revert H. unfold validate.
  destruct HI as (rs & fl & HI). destruct (slab_validate (sh_ents s)) as [[]|]; [|done]. cbn [rbind].
  rewrite slab_iter_items. fold (its_of s).
  rewrite sh_iter_kvs in Hw, Ho. rewrite wsum_esum in Hw. set (its := its_of s) in *.
  pose proof (parts Hot its) as PH. pose proof (parts Cold its) as PC. pose proof (uparts its) as PU.
  rewrite tally_all_ok; [|simpl; lia..]. cbn [rbind]. unfold plus. cbn [t_nhot t_ncold t_nnr t_whot t_whotp t_wcold t_wcoldp]. rewrite !N.add_0_l.
  do 3 (match goal with |- context [ensure ?b] => destruct (ensure b) as [[]|]; [|done]; cbn [rbind] end). unfold wadd at 1. rewrite PH.
  destruct (N.ltb_spec (esum (wof Hot) its) two64); [|lia]. cbn [rbind]. destruct (ensure _) as [[]|]; [|done]. cbn [rbind].
  unfold wadd at 1. rewrite PC. destruct (N.ltb_spec (esum (wof Cold) its) two64); [|lia]. cbn [rbind]. destruct (ensure (_ =? _)%N) as [[]|]; [|done]. cbn [rbind].
  intros _. unfold wadd. rewrite PH, PC. repeat (match goal with |- context [(?a <? two64)%N] => destruct (N.ltb_spec a two64); [|lia] end). cbn [rbind].
  rewrite PU. destruct (N.leb_spec (uwsum (kvs its)) (sh_capacity s)); [lia|]. unfold ensure. by destruct (_ =? _)%N, (_ =? _)%N.
Qed.
End vshard.
