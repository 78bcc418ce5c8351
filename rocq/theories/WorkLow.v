(* An eviction that gives up has looked at everything: when a call leaves the cache too heavy, it
   has asked of every item that weighs something whether it is pinned. *)
From Verif Require Export WorkProofs.

Section worklow.
Context {P : Params} (LW : Lawful P).
Notation K := (K P). Notation V := (V P). Notation RS := (RS P).
Notation shard := (shard P). Notation resident := (resident P). Notation entry := (entry P).
Notation M := (M (P:=P)).
Notation "'let*' x := m 'in' k" := (Crash.mbind m (λ x, k))
  (at level 200, x pattern, m at level 100, k at level 200, right associativity).
Implicit Types (s : shard) (l : lcs P) (k : K) (v : V) (r : resident) (e : entry) (its : list (option entry)).

(* ---- computations that make at least so many looks ---- *)
Definition cost (tr : list (point * shard)) : N := count looks tr.
Lemma cost_app t1 t2 : cost (t1 ++ t2) = (cost t1 + cost t2)%N.
Proof. unfold cost. induction t1 as [|[p s] t1 IH]; [done|]. simpl. rewrite IH. destruct (looks p); lia. Qed.
Definition al {A} (m : M A) (Q : A → N → Prop) : Prop := ∀ a, m.2 = Ok a → Q a (cost m.1).
Definition up {A} (Q : A → N → Prop) : Prop := ∀ a n n', (n ≤ n')%N → Q a n → Q a n'.
Lemma al_bind {A C} (m : M A) (g : A → M C) (Q : C → N → Prop) : (∀ a, m.2 = Ok a → al (g a) (λ c n, Q c (cost m.1 + n)%N)) → al (Crash.mbind m g) Q.
Proof.
  intros H c. unfold Crash.mbind. destruct m as [t [a|e]]; simpl; [|done]. intros E. rewrite cost_app. by apply (H a).
Qed.
Lemma al_drop {A C} (m : M A) (g : A → M C) (Q : C → N → Prop) : up Q → (∀ a, m.2 = Ok a → al (g a) Q) → al (Crash.mbind m g) Q.
Proof. intros U H. apply al_bind. intros a E c Ec. eapply U; [|by apply (H a E)]. lia. Qed.
Lemma al_lift {A C} (r : res A) (g : A → M C) (Q : C → N → Prop) : (∀ a, r = Ok a → al (g a) Q) → al (Crash.mbind (lift r) g) Q.
Proof. intros H. apply al_bind. intros a E c Ec. by apply (H a E). Qed.
Lemma al_look {A} p s (g : () → M A) (Q : A → N → Prop) : looks p = true → al (g ()) (λ c n, Q c (1 + n)%N) → al (Crash.mbind (pt p s) g) Q.
Proof.
  intros Hp H. apply al_bind. intros [] _. assert (cost (pt p s).1 = 1%N) as ->; [|exact H]. unfold cost. simpl. by rewrite Hp.
Qed.
Lemma al_ok {A} (a : A) (Q : A → N → Prop) : Q a 0%N → al (lift (Ok a)) Q.
Proof. by intros H a' [= <-]. Qed.
Lemma al_assoc {A C D} (m : M A) (g : A → M C) (h : C → M D) (Q : D → N → Prop) :
  al (Crash.mbind m (λ a, Crash.mbind (g a) h)) Q → al (Crash.mbind (Crash.mbind m g) h) Q.
Proof.
  unfold al, Crash.mbind. destruct m as [t [a|e]]; simpl; [|done]. destruct (g a) as [t' [x|e]]; simpl; [|done]. by rewrite (assoc_L (++)).
Qed.
Lemma al_mono {A} (m : M A) (Q Q' : A → N → Prop) : al m Q → (∀ a n, m.2 = Ok a → Q a n → Q' a n) → al m Q'.
Proof. intros H HQ a E. by apply HQ, H. Qed.

(* ---- the items that weigh something ---- *)
Definition enz e : N := match e with Resident r => if (rweight r =? 0)%N then 0 else 1 | _ => 0 end.
Definition ewt e : N := match e with Resident r => rweight r | _ => 0 end.
Definition nzs s : N := esum enz (its_of s).
Lemma nzs_split s : nzs s = (nz Hot s + nz Cold s)%N.
Proof.
  unfold nzs, nz. symmetry. apply esum_add. intros [[k v [] x]| |]; simpl; try done; unfold rweight; simpl; by destruct (_ =? _)%N.
Qed.
Definition heavy (kv : K * V) : Prop := weight P kv.1 kv.2 ≠ 0%N.
Global Instance heavy_dec kv : Decision (heavy kv).
Proof. unfold heavy. apply _. Defined.
Lemma nzs_iter s : nzs s = N.of_nat (length (filter heavy (sh_iter s))).
Proof.
  rewrite sh_iter_kvs. unfold nzs. induction (its_of s) as [|o its IH]; [done|]. unfold kvs in *. csimpl. rewrite filter_app, app_length.
  unfold esum in *. cbn [foldr]. rewrite IH. destruct o as [[r|p|h]|]; simpl; try done.
  unfold rweight. rewrite filter_cons, filter_nil. unfold heavy at 2. simpl.
  destruct (N.eqb_spec (weight P (r_key r) (r_val r)) 0) as [E|E]; case_decide; simpl; try done; lia.
Qed.
Lemma wsum_its s : wsum (sh_iter s) = esum ewt (its_of s).
Proof.
  rewrite sh_iter_kvs. induction (its_of s) as [|o its IH]; [done|]. unfold kvs in *. csimpl. rewrite wsum_app, IH.
  unfold esum. cbn [foldr]. destruct o as [[r|p|h]|]; simpl; try done. unfold rweight. lia.
Qed.
Lemma esum_into (f : entry → N) its (L : list nat) : (∀ e, (f e ≤ 1)%N) →
  (∀ t e, its !! t = Some (Some e) → f e ≠ 0%N → t ∈ L) → (esum f its ≤ N.of_nat (length L))%N.
Proof.
  intros F1. revert L. induction its as [|o its IH] using rev_ind; intros L H; [unfold esum; simpl; lia|].
  rewrite esum_app.
  destruct (decide (oget f o = 0%N)) as [E|E].
  - rewrite E. rewrite N.add_0_r. apply IH. intros t e He Hf. apply (H t e); [|done]. by apply lookup_app_l_Some.
  - destruct o as [e|]; [|done]. simpl in *. pose proof (F1 e).
    assert (length its ∈ L) as Hin. { apply (H _ e); [|done]. by rewrite lookup_app_r, Nat.sub_diag by done. }
    apply elem_of_list_split in Hin as (L1 & L2 & ->).
    assert (esum f its ≤ N.of_nat (length (L1 ++ L2)))%N as Hle.
    { apply IH. intros t e' He Hf. assert (t ∈ L1 ++ length its :: L2) as Hin by (apply (H t e'); [by apply lookup_app_l_Some|done]).
      apply lookup_lt_Some in He. rewrite elem_of_app, elem_of_cons in Hin. rewrite elem_of_app. destruct Hin as [?|[->|?]]; auto. lia. }
    rewrite app_length in *. simpl. lia.
Qed.
Lemma nz_ring s rs fl st : Inv' s rs fl → (nz st s ≤ N.of_nat (length (rs (st_rid st))))%N.
Proof.
  intros HI. apply esum_into.
  - intros [[k v st' x]| |]; simpl; try lia. destruct st, st'; simpl; try lia; destruct (_ =? _)%N; lia.
  - intros t [r| |] Ht; simpl; try done. intros Hn.
    assert (r_state r = st ∧ rweight r ≠ 0%N) as [<- Hw].
    { destruct r as [k v st' x]. unfold rweight in *. simpl in *. destruct st, st'; simpl in Hn; try done; destruct (N.eqb_spec (weight P k v) 0); done. }
    by eapply inv_ring.
Qed.

(* ---- the hands ---- *)
Definition quits {A B} (n : N) (a : A * B * bool) (c : N) : Prop := a.2 = false → (n ≤ c)%N.
Lemma up_quits {A C} n : up (quits (A:=A) (B:=C) n).
Proof. intros a c c' Hc H Hb. specialize (H Hb). lia. Qed.
Lemma al_true {A C} (a : A * C) n : al (lift (Ok (a, true))) (quits n).
Proof. by apply al_ok. Qed.
Ltac dr := apply al_drop; [apply up_quits|].
Lemma hot_evict_true s l t r n : al (c_hot_evict s l t r) (quits n).
Proof.
  unfold c_hot_evict. dr. intros _ _. dr. intros s1 _. dr. intros _ _. destruct (call_before _ _ _) as [l1 v']. cbv zeta. dr. intros _ _.
  destruct (_ =? _)%N.
  - dr. intros [es h] _. apply al_true.
  - dr. intros s2 _. dr. intros _ _. dr. intros [es [[[ev| |] nx]|]] _; try done. dr. intros _ _. dr. intros s3 _. apply al_true.
Qed.
Lemma cold_evict_true s l t r n : al (c_cold_evict s l t r) (quits n).
Proof.
  unfold c_cold_evict. dr. intros _ _. dr. intros s1 _. dr. intros _ _. destruct (call_before _ _ _) as [l1 v']. cbv zeta. dr. intros _ _.
  destruct (_ =? _)%N.
  - dr. intros [es h] _. apply al_true.
  - dr. intros _ _. dr. intros [es h] _. dr. intros [es1 h1] _. dr. intros s2 _. dr. intros s3 _. dr. intros _ _. apply al_true.
Qed.
Lemma promote_true s l t r n : al (c_cold_promote s l t r) (quits n).
Proof. unfold c_cold_promote. cbv zeta. dr. intros _ _. dr. intros s1 _. dr. intros [s2 l2] _. apply al_true. Qed.
Lemma lo_hot_loop n : ∀ s l rs fl idx A B u, Inv' s rs fl → rs RHot = A ++ idx :: B →
  al (c_advance_hot_loop n s l idx u) (quits (N.of_nat (length (idx :: B)))).
Proof.
  induction n as [|n IH]; intros s l rs fl idx A B u HI HAB; simpl; [done|].
  assert (NoDup (rs RHot)) as Hnd by (by eapply RI_NoDup, HI).
  assert (idx ∈ rs RHot) as Hin by (rewrite HAB, elem_of_app, elem_of_cons; tauto).
  destruct (inv_ring_hot _ _ _ _ HI Hin) as (r & Ht & Hst & Hw).
  destruct (RI_get _ _ _ _ _ _ _ (i_ri _ _ _ HI) HAB) as (e & nx & Hg & He & Hnx).
  assert (e = Resident r) as -> by (unfold its_of in Ht; congruence). clear He.
  apply al_lift. intros [e nx']. rewrite Hg. simpl. intros [= <- <-].
  apply al_lift. intros _ _. apply al_look; [done|].
  assert (∀ x u', al (c_advance_hot_loop n (set_entry s idx (Resident (set_key_ref r x))) l nx u') (λ a c, quits (N.of_nat (S (length B))) a (1 + c)%N)) as Hgo.
  { intros x u'. destruct (ref_spec LW s rs fl idx r x HI Ht) as [HI1 _].
    destruct B as [|b B].
    - assert (∃ B', rs RHot = nx :: B') as [B' HB'].
      { destruct A as [|a A]; simpl in Hnx; injection Hnx as ->; rewrite HAB; [by exists []|by exists (A ++ [idx])]. }
      eapply al_mono; [by apply (IH _ l rs fl nx [] B' u' HI1)|]. intros a c _ H Hb. simpl. lia.
    - simpl in Hnx. injection Hnx as ->.
      eapply al_mono; [apply (IH _ l rs fl b (A ++ [idx]) B u' HI1); by rewrite HAB, <-(assoc_L (++))|].
      intros a c _ H Hb. specialize (H Hb). simpl in *. lia. }
  destruct (rpinned r).
  - destruct ((u =? 0)%N && _) eqn:Hq; [|apply Hgo]. apply andb_true_iff in Hq as [_ Hq]. apply bool_decide_eq_true in Hq.
    destruct B as [|b B]; [apply al_ok; intros _; simpl; lia|]. exfalso.
    simpl in Hnx. injection Hnx as ->. change (a_head (sh_hot (set_entry s idx ?x))) with (a_head (sh_hot s)) in Hq.
    pose proof (i_heads _ _ _ HI RHot) as Hh. simpl in Hh. rewrite Hh, HAB in Hq. revert Hq. apply ring_neq_head. by rewrite <-HAB.
  - destruct (negb _); [apply Hgo|]. eapply al_mono; [apply (hot_evict_true _ _ _ _ (N.of_nat (S (length B))))|].
    intros a c _ H Hb. specialize (H Hb). lia.
Qed.
Lemma lo_hot s l rs fl : Inv' s rs fl → al (c_advance_hot s l) (quits (N.of_nat (length (rs RHot)))).
Proof.
  intros HI. unfold c_advance_hot. pose proof (i_heads _ _ _ HI RHot) as Hh. simpl in Hh. rewrite Hh.
  destruct (rs RHot) as [|i C] eqn:HC; simpl; [apply al_ok; intros _; simpl; lia|]. by apply (lo_hot_loop _ s l rs fl i [] C).
Qed.
Lemma lo_cold_loop n : ∀ s l rs fl idx A B, Inv' s rs fl → rs RCold = A ++ idx :: B →
  al (c_advance_cold_loop n s l idx) (quits (N.of_nat (length (idx :: B) + length (rs RHot)))).
Proof.
  induction n as [|n IH]; intros s l rs fl idx A B HI HAB; simpl; [done|].
  assert (NoDup (rs RCold)) as Hnd by (by eapply RI_NoDup, HI).
  assert (idx ∈ rs RCold) as Hin by (rewrite HAB, elem_of_app, elem_of_cons; tauto).
  destruct (inv_ring_cold _ _ _ _ HI Hin) as (r & Ht & Hst & Hw).
  destruct (RI_get _ _ _ _ _ _ _ (i_ri _ _ _ HI) HAB) as (e & nx & Hg & He & Hnx).
  assert (e = Resident r) as -> by (unfold its_of in Ht; congruence). clear He.
  apply al_lift. intros [e nx']. rewrite Hg. simpl. intros [= <- <-].
  apply al_lift. intros _ _. destruct (negb _); [apply promote_true|]. apply al_look; [done|].
  destruct (rpinned r).
  - destruct (bool_decide _) eqn:Hq.
    + apply bool_decide_eq_true in Hq. destruct B as [|b B].
      * eapply al_mono; [by apply (lo_hot s l rs fl)|]. intros a c _ H Hb. specialize (H Hb). simpl. lia.
      * exfalso. simpl in Hnx. injection Hnx as ->. pose proof (i_heads _ _ _ HI RCold) as Hh. simpl in Hh. rewrite Hh, HAB in Hq.
        revert Hq. apply ring_neq_head. by rewrite <-HAB.
    + apply bool_decide_eq_false in Hq. destruct B as [|b B].
      { exfalso. apply Hq. pose proof (i_heads _ _ _ HI RCold) as Hh. simpl in Hh. rewrite Hh, HAB, Hnx. by destruct A. }
      simpl in Hnx. injection Hnx as ->.
      eapply al_mono; [apply (IH s l rs fl b (A ++ [idx]) B HI); by rewrite HAB, <-(assoc_L (++))|].
      intros a c _ H Hb. specialize (H Hb). simpl in *. lia.
  - eapply al_mono; [apply (cold_evict_true _ _ _ _ (N.of_nat (S (length B + length (rs RHot)))))|].
    intros a c _ H Hb. specialize (H Hb). lia.
Qed.
Lemma lo_cold s l : Inv s → al (c_advance_cold s l) (quits (nzs s)).
Proof.
  intros (rs & fl & HI). pose proof (nz_ring s rs fl Hot HI) as H1. pose proof (nz_ring s rs fl Cold HI) as H2. rewrite nzs_split. simpl in *.
  unfold c_advance_cold. pose proof (i_heads _ _ _ HI RCold) as Hh. simpl in Hh. rewrite Hh.
  destruct (rs RCold) as [|i C] eqn:HC; simpl in *.
  - eapply al_mono; [by apply (lo_hot s l rs fl)|]. intros a c _ H Hb. specialize (H Hb). lia.
  - eapply al_mono; [by apply (lo_cold_loop _ s l rs fl i [] C)|]. intros a c _ H Hb. specialize (H Hb). simpl in H. lia.
Qed.
(* it made room, or it looked at everything *)
Definition tried (x : N) (a : shard * lcs P) (c : N) : Prop :=
  Inv a.1 ∧ ((wsum (sh_iter a.1) + x ≤ sh_capacity a.1)%N ∨ (nzs a.1 ≤ c)%N).
Lemma up_tried x : up (tried x).
Proof. intros a c c' Hc [? [?|?]]; split; auto. right. lia. Qed.
Lemma lo_evict_loop n : ∀ s l x, Inv s → al (c_evict_loop n s l x) (tried x).
Proof.
  induction n as [|n IH]; intros s l x HI; simpl; [done|]. apply al_lift. intros a Ha. apply al_lift. intros a' Ha'.
  assert (a = a_weight (sh_hot s) + a_weight (sh_cold s) ∧ a' = a + x ∧ a < two64)%N as (-> & -> & Hlt).
  { unfold wadd in *. destruct (N.ltb_spec (a_weight (sh_hot s) + a_weight (sh_cold s)) two64); [|done]. injection Ha as <-.
    destruct (_ <? _)%N; [|done]. by injection Ha' as <-. }
  rewrite <-(wsum_total s HI) in *.
  destruct (N.ltb_spec (sh_capacity s) (wsum (sh_iter s) + x)) as [Hc|Hc]; [|apply al_ok; split; [done|by left]].
  apply al_bind. intros [[s1 l1] b] E. pose proof (lo_cold s l HI _ E) as Hlo. rewrite er_advance_cold in E.
  destruct (advance_cold_spec LW s l HI Hlt) as (s' & l' & b' & E' & H). rewrite E in E'. injection E' as <- <- <-.
  destruct b.
  - destruct H as (HI1 & _). eapply al_mono; [by apply IH|]. intros a c _. apply up_tried. lia.
  - destruct H as (-> & HI1 & Hr & _). apply al_ok. split; [done|]. right. specialize (Hlo eq_refl). simpl.
    rewrite nzs_split in *. rewrite !(nz_refstep _ _ _ Hr). lia.
Qed.
Lemma lo_evict s l x : Inv s → al (c_evict_until s l x) (tried x).
Proof. apply lo_evict_loop. Qed.

(* ---- insertions ---- *)
Definition worked (a : shard * lcs P * option (K * V)) (c : N) : Prop :=
  (wsum (sh_iter a.1.1) ≤ sh_capacity a.1.1)%N ∨ (nzs a.1.1 ≤ c + 1)%N.
Lemma up_worked : up worked.
Proof. intros a c c' Hc [?|?]; [by left|]. right. lia. Qed.
Lemma lo_finish s l : Inv s → al (let* (s', l') := c_evict_until s l 0 in lift (Ok (s', l', @None (K * V)))) worked.
Proof.
  intros HI. apply al_bind. intros [s1 l1] E. destruct (lo_evict s l 0 HI _ E) as [_ H]. apply al_ok. unfold worked. simpl in *.
  destruct H; [left|right]; lia.
Qed.
Lemma esum_more (f : entry → N) its t o : (esum f (<[t := o]> its) ≤ esum f its + oget f o)%N.
Proof.
  destruct (its !! t) as [o0|] eqn:E.
  - pose proof (esum_insert f its t o0 o E). lia.
  - rewrite list_insert_ge by (by apply lookup_ge_None). lia.
Qed.
Lemma esum_new (f : entry → N) s e es i : slab_insert (sh_ents s) e = Ok (es, i) → (esum f (items es) ≤ esum f (its_of s) + f e)%N.
Proof.
  unfold slab_insert. destruct (ents (sh_ents s) !! _) as [x|] eqn:E.
  - destruct (assert _); simpl; [|done]. intros [= <- _]. unfold its_of, items. simpl.
    rewrite list_fmap_insert. apply esum_more.
  - destruct (assert _); simpl; [|done]. destruct (_ =? _)%N; [done|]. intros [= <- _]. unfold its_of, items. simpl.
    rewrite fmap_app. simpl. rewrite esum_app. done.
Qed.
Ltac du := apply al_drop; [apply up_worked|].
Lemma lo_insert s l k v : Inv s → (admission (sh_target_hot s) (lrs l) k v).2 = false →
  al (c_insert s l (hash P k) k v Insert) worked.
Proof.
  intros HI Hno. unfold c_insert. du. intros _ _.
  pose proof (admission_eq (sh_target_hot s) l k v) as Had. unfold admission_l in Had.
  destruct (admission (sh_target_hot s) (lrs l) k v) as [[[rs1 es0] v1] over] eqn:Hadm. cbv zeta. rewrite Had. clear Had. simpl in Hno. subst over.
  set (l1 := Lcs rs1 (llog l ++ es0)). du. intros o. rewrite er_search.
  destruct (search_spec LW s k HI) as (o' & -> & Ho). intros [= <-].
  destruct Ho as [t e k' Hm Ht He Hk|t Hm Ht Ha|Ha Hg].
  - unfold c_insert_existing. du. intros e'. cbn [lift snd]. rewrite (entry_at_ok _ _ _ Ht). intros [= <-].
    destruct e as [r|q|h]; simpl in He; [injection He as <-|injection He as <-|done]; cbn beta iota zeta.
    + apply al_assoc. du. intros _ _. cbn [is_soft].
      set (r' := Res k v1 (r_state r) (N.min (r_ref r + 1) MAX_F)).
      pose proof (reweigh_spec LW s t r r' HI Ht eq_refl (keqb_sym _ LW _ _ Hk)) as Hrw. simpl in Hrw.
      change (rweight r') with (weight P k v1) in Hrw.
      apply al_assoc. du. intros _ _. apply al_assoc. apply al_lift. intros s1 E1. apply al_assoc. apply al_lift. intros s2 E2.
      apply al_assoc. apply al_lift. intros s3 E3.
      assert (reweigh (set_entry s t (Resident r')) (r_state r) t (rweight r) (weight P k v1) = Ok s3) as Er.
      { unfold reweigh. rewrite E1. simpl. rewrite E2. simpl. exact E3. }
      rewrite Er in Hrw. destruct (_ <? two64)%N; [|done]. destruct Hrw as (s3' & [= <-] & HI3 & Hit3 & _).
      apply al_assoc. du. intros _ _. apply al_lift. intros [s4 l4] [= <- <-]. by apply lo_finish.
    + cbn [is_replace]. cbn beta iota zeta. apply al_assoc, al_lift. intros s1 E1. apply al_assoc, al_lift. intros s2 E2.
      apply al_lift. intros [s4 l4] [= <- <-].
      set (r' := Res k v1 (p_hot q) 1).
      assert (enter (set_entry s t (Resident r')) (p_hot q) t (weight P k v1) = Ok s2) as Er.
      { unfold enter, r'. rewrite E1. simpl. exact E2. }
      destruct (N.ltb_spec (a_weight (sh_acct s (p_hot q)) + weight P k v1) two64) as [HW|HW].
      2:{ rewrite enter_ovf in Er; [done|]. by destruct (p_hot q). }
      destruct (enter_ph_spec LW s t q r' HI Ht Hm (keqb_sym _ LW _ _ Hk) HW) as (s3 & Hen & HI3 & Hit3 & _).
      simpl in Hen. change (rweight r') with (weight P k v1) in Hen. rewrite Er in Hen. injection Hen as <-. by apply lo_finish.
  - unfold c_insert_existing. du. intros e'. cbn [lift snd]. rewrite (entry_at_ok _ _ _ Ht). intros [= <-].
    cbn [is_replace]. cbn beta iota zeta.
    apply al_assoc, al_lift. intros s1 E1. apply al_assoc, al_lift. intros s2 E2.
    apply al_assoc, al_lift. intros [es ng] E3. apply al_assoc, al_lift. intros s4 E4.
    apply al_lift. intros [s5 l5] [= <- <-].
    set (r' := Res k v1 Hot 0).
    assert (enter_ghost (set_entry s t (Resident r')) t (weight P k v1) = Ok s4) as Er.
    { unfold enter_ghost, r'. rewrite E1. cbn [rbind]. rewrite E2. cbn [rbind]. rewrite E3. exact E4. }
    destruct (N.ltb_spec (a_weight (sh_hot s) + weight P k v1) two64) as [HW|HW].
    2:{ by rewrite enter_ghost_ovf in Er. }
    destruct (enter_ghost_spec LW s t r' HI Ht Ha eq_refl HW) as (s3 & Hen & HI3 & Hit3 & _).
    change (rweight r') with (weight P k v1) in Hen. rewrite Er in Hen. injection Hen as <-. by apply lo_finish.
  - cbn [is_replace]. apply al_lift. intros hw _. cbv zeta.
    apply al_bind. intros [s1 l2] E1. destruct (lo_evict s l1 _ HI _ E1) as [_ Htr]. cbn [fst snd] in *.
    set (n := cost _) in *. clearbody n. cbn [fst snd].
    apply al_drop; [intros ? ? ? ?; apply up_worked; lia|]. intros s2 E2. pose proof E2 as I2. apply its_add in I2. rewrite its_inc in I2.
    apply al_drop; [intros ? ? ? ?; apply up_worked; lia|]. intros [es idx] E3.
    apply al_drop; [intros ? ? ? ?; apply up_worked; lia|]. intros s4 E4.
    apply al_drop; [intros ? ? ? ?; apply up_worked; lia|]. intros s5. rewrite er_map_insert. intros E5. apply al_ok.
    assert (its_of s5 = items es) as I5.
    { apply its_map_insert in E5. rewrite E5. simpl in E4. destruct (negb _) in E4; [apply its_back in E4; by rewrite E4|by injection E4 as <-]. }
    assert (sh_capacity s5 = sh_capacity s1) as C5.
    { transitivity (sh_capacity s4). { unfold map_insert in E5. destruct (tinsert _ _ _ _ _); simpl in E5; [|done]. by injection E5 as <-. }
      transitivity (sh_capacity s2).
      { simpl in E4. destruct (negb _) in E4; [|by injection E4 as <-]. unfold link_back in E4. destruct (slab_link _ _ _) as [[? ?]|]; simpl in E4; [|done].
        injection E4 as <-. by destruct (_ <=? _)%N. }
      simpl in E2. unfold add_weight in E2. destruct (wadd _ _); simpl in E2; [|done]. injection E2 as <-. by destruct (_ <=? _)%N. }
    unfold worked. cbn [fst snd]. rewrite wsum_its, C5. unfold nzs. rewrite I5.
    pose proof (esum_new enz _ _ _ _ E3) as N1. pose proof (esum_new ewt _ _ _ _ E3) as N2. rewrite I2 in N1, N2.
    destruct Htr as [Htr|Htr]; [left; rewrite wsum_its in Htr; simpl in N2; unfold rweight in N2; simpl in N2; lia|].
    right. unfold nzs in Htr. simpl in N1. destruct (_ =? _)%N in N1; lia.
Qed.
Lemma lo_call s rs k v wl s' o : Inv s → (admission (sh_target_hot s) rs k v).2 = false → exec s (CInsert rs k v wl) = Ok (s', o) →
  (wsum (sh_iter s') ≤ sh_capacity s')%N ∨ (nzs s' ≤ call_effort looks s (CInsert rs k v wl) + 1)%N.
Proof.
  intros HI Ha He.
  assert (al (w_exec s (CInsert rs k v wl)) (λ a c, (wsum (sh_iter a.1) ≤ sh_capacity a.1)%N ∨ (nzs a.1 ≤ c + 1)%N)) as H.
  2:{ apply (H (s', o)). by rewrite er_w_exec. }
  assert (up (λ (a : shard * out P) c, (wsum (sh_iter a.1) ≤ sh_capacity a.1)%N ∨ (nzs a.1 ≤ c + 1)%N)) as U.
  { intros a c c' Hc [?|?]; [by left|]. right. lia. }
  simpl. unfold c_u_insert. apply al_drop; [exact U|]. intros _ _. apply al_drop; [exact U|]. intros _ _.
  apply al_bind. intros [[s1 l1] o1] E. pose proof (lo_insert s (Lcs rs []) k v HI Ha _ E) as Hw. unfold worked in Hw. simpl in Hw.
  apply al_drop; [intros ? ? ? ?; apply U; lia|]. intros _ _. intros a. unfold end_request.
  destruct wl; simpl; intros [= <-]; simpl; (destruct Hw; [by left|right; lia]).
Qed.
End worklow.
