(* Remaining lemmas for the sequential properties. *)
From Verif Require Export SeqProofs4.

Section seq5.
Context {P : Params} (LW : Lawful P).
Notation K := (K P). Notation V := (V P). Notation RS := (RS P).
Notation shard := (shard P). Notation out := (out P). Notation cmd := (cmd P). Notation contents := (contents P).
Implicit Types (s : shard) (k : K) (v : V) (c : contents) (rs : RS) (es : list (event P)).

Lemma weight_exact s : Inv s → sh_weight s = if (wsum (sh_iter s) <? two64)%N then Ok (wsum (sh_iter s)) else Fail WeightOvf.
Proof. intros HI. rewrite (wsum_total s HI). done. Qed.
Lemma len_exact s : Inv s → sh_len s = N.of_nat (length (sh_iter s)).
Proof.
  intros (rs & fl & HI). rewrite sh_iter_kvs, length_esum. unfold sh_len.
  pose proof (acc_n _ _ (i_acc _ _ _ HI) Hot) as H1. pose proof (acc_n _ _ (i_acc _ _ _ HI) Cold) as H2. simpl in *. by rewrite H1, H2.
Qed.
Lemma ukeys_lookup c i j p q : ukeys c → c !! i = Some p → c !! j = Some q → keqb P p.1 q.1 = true → i = j.
Proof. intros Hu. apply (proj1 (ukeys_alt LW c) Hu). Qed.

(* explains, for lifecycles that do not change values: conservation of items *)
Lemma explains_conserve c es c' : (∀ rs k v, (before_evict P rs k v).2 = v) →
  explains c es c' → Forall (λ e, match e with EvBefore k v v' => ∃ rs, (before_evict P rs k v).2 = v' | _ => True end) es →
  c ≡ₚ c' ++ evicted es.
Proof.
  intros Hid. induction 1 as [c c' Hp|c k v v' rest es c' Hp H IH|c k v rest es c' Hp H IH]; intros HF; simpl.
  - by rewrite app_nil_r.
  - apply Forall_cons in HF as [[rs Hb] HF]. rewrite Hid in Hb. subst v'. rewrite Hp. by apply IH.
  - apply Forall_cons in HF as [_ HF]. rewrite Hp, (IH HF). by rewrite Permutation_middle.
Qed.
Definition real es : Prop := Forall (λ e : event P, match e with EvBefore k v v' => ∃ rs, (before_evict P rs k v).2 = v' | _ => True end) es.
Lemma evictions_real es : evictions es → real es.
Proof.
  intros H. remember (length es) as n eqn:Hn. assert (length es ≤ n) as Hle by lia. clear Hn. revert es H Hle.
  induction n as [|n IH]; intros es H Hle; destruct es as [|[k1 v1 v1'|k1 v1] es]; simpl in *; try lia; try done; try apply Forall_nil_2.
  destruct H as (_ & _ & (rs & rs' & Hb) & Hr). apply Forall_cons. split; [exists rs; by rewrite Hb|].
  destruct (_ =? _)%N; [apply IH; [done|lia]|]. destruct es as [|[k2 v2 v2'|k2 v2] es]; try done.
  destruct Hr as (-> & -> & Hr). apply Forall_cons. split; [done|]. apply IH; [done|simpl in *; lia].
Qed.
Lemma offered_real (budget : N) rs k v : real (if (budget <? weight P k v)%N && negb (pinned P k v) then [EvBefore k v (stored budget rs k v)] else []).
Proof.
  unfold stored. destruct (_ && _); [|apply Forall_nil_2]. apply Forall_cons. split; [by exists rs|apply Forall_nil_2].
Qed.
Lemma inserts_real cap budget b rs c k v es rs' c' o : inserts cap budget b rs c k v es rs' c' o → real es.
Proof.
  intros H. apply inserts_hooks in H as (of & re & rf & e2 & -> & He & _ & -> & -> & Hr). unfold real. rewrite !Forall_app.
  split_and!; [apply offered_real|destruct (find_key k c) as [[??]|]; repeat constructor| |by apply evictions_real].
  destruct Hr as [(_ & -> & _)|(_ & ->)]; [|apply Forall_nil_2]. destruct b; repeat constructor.
Qed.
Lemma loads_real cap budget rs c k v es rs' c' : loads cap budget rs c k v es rs' c' → real es.
Proof.
  intros H. apply loads_hooks in H as (of & rf & e2 & -> & He & _ & -> & Hr). unfold real. rewrite !Forall_app.
  split_and!; [apply offered_real| |by apply evictions_real].
  destruct Hr as [(_ & -> & _)|(_ & ->)]; [|apply Forall_nil_2]. repeat constructor.
Qed.

(* what before_evict is called on *)
Lemma inserts_before cap budget b rs c k v es rs' c' o k0 v0 v1 : inserts cap budget b rs c k v es rs' c' o →
  EvBefore k0 v0 v1 ∈ es → pinned P k0 v0 = false ∧ weight P k0 v0 ≠ 0%N.
Proof.
  intros H Hin. apply inserts_hooks in H as (of & re & rf & e2 & -> & He & _ & -> & -> & Hr). rewrite !elem_of_app in Hin.
  destruct Hin as [Hin|[Hin|[Hin|Hin]]].
  - destruct (_ && _) eqn:E; [|by apply elem_of_nil in Hin]. apply elem_of_list_singleton in Hin as [= -> -> ->].
    apply andb_true_iff in E as [E1 E2]. apply N.ltb_lt in E1. apply negb_true_iff in E2. split; [done|lia].
  - destruct (find_key k c) as [[??]|]; [by apply elem_of_list_singleton in Hin|by apply elem_of_nil in Hin].
  - destruct Hr as [(_ & -> & _)|(_ & ->)]; [|by apply elem_of_nil in Hin]. destruct b; [by apply elem_of_list_singleton in Hin|by apply elem_of_nil in Hin].
  - by eapply evictions_only.
Qed.
Lemma loads_before cap budget rs c k v es rs' c' k0 v0 v1 : loads cap budget rs c k v es rs' c' →
  EvBefore k0 v0 v1 ∈ es → pinned P k0 v0 = false ∧ weight P k0 v0 ≠ 0%N.
Proof.
  intros H Hin. apply loads_hooks in H as (of & rf & e2 & -> & He & _ & -> & Hr). rewrite !elem_of_app in Hin.
  destruct Hin as [Hin|[Hin|Hin]].
  - destruct (_ && _) eqn:E; [|by apply elem_of_nil in Hin]. apply elem_of_list_singleton in Hin as [= -> -> ->].
    apply andb_true_iff in E as [E1 E2]. apply N.ltb_lt in E1. apply negb_true_iff in E2. split; [done|lia].
  - destruct Hr as [(_ & -> & _)|(_ & ->)]; [|by apply elem_of_nil in Hin]. by apply elem_of_list_singleton in Hin.
  - by eapply evictions_only.
Qed.
(* what on_evict is called on *)
Lemma evictions_pair es k v : evictions es → EvEvict k v ∈ es → ∃ v0, EvBefore k v0 v ∈ es ∧ weight P k v ≠ 0%N.
Proof.
  intros H Hin. remember (length es) as n eqn:Hn. assert (length es ≤ n) as Hle by lia. clear Hn. revert es H Hin Hle.
  induction n as [|n IH]; intros es H Hin Hle; destruct es as [|[k1 v1 v1'|k1 v1] es]; simpl in *; try lia; try done;
    try by apply elem_of_nil in Hin.
  destruct H as (Hp & Hw & _ & Hr). apply elem_of_cons in Hin as [Hin|Hin]; [done|].
  destruct (N.eqb_spec (weight P k1 v1') 0) as [|Hne].
  - destruct (IH es Hr Hin ltac:(lia)) as (v0 & H0 & ?). exists v0. split; [by right|done].
  - destruct es as [|[k2 v2 v2'|k2 v2] es]; try done. destruct Hr as (-> & -> & Hr).
    apply elem_of_cons in Hin as [[= -> ->]|Hin].
    + exists v1. split; [by left|done].
    + destruct (IH es Hr Hin ltac:(simpl in *; lia)) as (v0 & H0 & ?). exists v0. split; [by do 2 right|done].
Qed.
Lemma inserts_evict cap budget b rs c k v es rs' c' o k0 v0 : inserts cap budget b rs c k v es rs' c' o →
  EvEvict k0 v0 ∈ es → keqb P k k0 = true ∨ ∃ v1, EvBefore k0 v1 v0 ∈ es.
Proof.
  intros H Hin. apply inserts_hooks in H as (of & re & rf & e2 & -> & He & _ & -> & -> & Hr). rewrite !elem_of_app in Hin.
  destruct Hin as [Hin|[Hin|[Hin|Hin]]].
  - destruct (_ && _) eqn:E; [|by apply elem_of_nil in Hin]. by apply elem_of_list_singleton in Hin.
  - destruct (find_key k c) as [[ko vo]|] eqn:Hf; [|by apply elem_of_nil in Hin]. apply elem_of_list_singleton in Hin as [= -> ->].
    apply find_key_Some in Hf as [_ Hk]. by left.
  - destruct Hr as [(_ & -> & _)|(_ & ->)]; [|by apply elem_of_nil in Hin]. destruct b; [|by apply elem_of_nil in Hin].
    apply elem_of_list_singleton in Hin as [= -> ->]. left. apply (keqb_refl _ LW).
  - destruct (evictions_pair _ _ _ He Hin) as (v1 & H1 & _). right. exists v1. rewrite !elem_of_app. auto.
Qed.
Lemma loads_evict cap budget rs c k v es rs' c' k0 v0 : loads cap budget rs c k v es rs' c' →
  EvEvict k0 v0 ∈ es → keqb P k k0 = true ∨ ∃ v1, EvBefore k0 v1 v0 ∈ es.
Proof.
  intros H Hin. apply loads_hooks in H as (of & rf & e2 & -> & He & _ & -> & Hr). rewrite !elem_of_app in Hin.
  destruct Hin as [Hin|[Hin|Hin]].
  - destruct (_ && _) eqn:E; [|by apply elem_of_nil in Hin]. by apply elem_of_list_singleton in Hin.
  - destruct Hr as [(_ & -> & _)|(_ & ->)]; [|by apply elem_of_nil in Hin].
    apply elem_of_list_singleton in Hin as [= -> ->]. left. apply (keqb_refl _ LW).
  - destruct (evictions_pair _ _ _ He Hin) as (v1 & H1 & _). right. exists v1. rewrite !elem_of_app. auto.
Qed.

(* the request a call makes, if any: the offered pair and the hook calls *)
Definition requested cap budget c (m : cmd) (o : out) c' : Prop :=
  o_log o = [] ∨
  (∃ rs k v b es rs' h, inserts cap budget b rs c k v es rs' c' h ∧ hooks_of o = es ∧ written m = Some (k, v)) ∨
  (∃ rs k kp v es rs' c1, keqb P k kp = true ∧ loads cap budget rs c kp v es rs' c1 ∧ hooks_of o = es ∧ written m = Some (k, v)).
Lemma does_requested cap budget c m o c' : does cap budget c m o c' → requested cap budget c m o c'.
Proof.
  intros Hd. unfold requested.
  assert (∀ rs k g, guards cap budget c rs k g o c' → o_log o = [] ∨ ∃ kp v wl es rs', g = GInsert v wl ∧ keqb P k kp = true ∧
    loads cap budget rs c kp v es rs' c' ∧ hooks_of o = es) as Hg.
  { intros rs k [v wl| |]; simpl.
    - intros (kp & es & rs' & Hk & Hl & ->). right. exists kp, v, wl, es, rs'. split_and!; try done. apply hooks_of_reply.
    - intros [_ ->]. by left.
    - intros [_ ->]. by left. }
  destruct m as [kq|kq|kq|kq f|kq f|kq|rs kq v soft wl|rs kq v wl|f| | | |rs kq w|rs kq w f|rs kq g|rs kq f g]; simpl in Hd |- *; try (left; by destruct Hd as [_ ->]).
  - destruct Hd as (es & rs' & b & Hi & ->). right; left. exists rs, kq, v, false, es, rs', b. split_and!; try done.
    destruct b; [apply hooks_of_begin|apply hooks_of_reply].
  - destruct Hd as (es & rs' & Hi & ->). right; left. exists rs, kq, v, true, es, rs', None. split_and!; try done. apply hooks_of_reply.
  - left. by destruct Hd as (_ & l & _ & ->).
  - destruct (value_of kq c), w as [v'|]; try (left; by destruct Hd as [_ ->]).
    destruct Hd as (kp & es & rs' & Hk & Hl & ->). right; right. exists rs, kq, kp, v', es, rs', c'. split_and!; try done. apply hooks_of_reply.
  - destruct (value_of kq c), w as [v'|]; try (left; by destruct Hd as [_ ->]).
    destruct Hd as (kp & es & rs' & c1 & Hk & Hl & _ & ->). right; right. exists rs, kq, kp, v', es, rs', c1. split_and!; try done. apply hooks_of_reply.
  - destruct (value_of kq c); [left; by destruct Hd as [_ ->]|].
    apply Hg in Hd as [?|(kp & v' & wl & es & rs' & -> & Hk & Hl & Hh)]; [by left|]. right; right. by exists rs, kq, kp, v', es, rs', c'.
  - destruct (value_of kq c); [left; by destruct Hd as [_ ->]|].
    apply Hg in Hd as [?|(kp & v' & wl & es & rs' & -> & Hk & Hl & Hh)]; [by left|]. right; right. by exists rs, kq, kp, v', es, rs', c'.
Qed.
Lemma nolog_hooks (o : out) e : o_log o = [] → ¬ e ∈ hooks_of o.
Proof. unfold hooks_of. intros ->. apply not_elem_of_nil. Qed.
Lemma does_before cap budget c m o c' k0 v0 v1 : does cap budget c m o c' → EvBefore k0 v0 v1 ∈ hooks_of o →
  pinned P k0 v0 = false ∧ weight P k0 v0 ≠ 0%N.
Proof.
  intros [H|[(rs & k & v & b & es & rs' & h & Hi & -> & _)|(rs & k & kp & v & es & rs' & c1 & Hk & Hl & -> & _)]]%does_requested Hin.
  - by apply (nolog_hooks _ _ H) in Hin.
  - by eapply inserts_before.
  - by eapply loads_before.
Qed.
Lemma does_evict cap budget c m o c' k0 v0 : does cap budget c m o c' → EvEvict k0 v0 ∈ hooks_of o →
  (∃ k v, written m = Some (k, v) ∧ keqb P k k0 = true) ∨ ∃ v1, EvBefore k0 v1 v0 ∈ hooks_of o.
Proof.
  intros [H|[(rs & k & v & b & es & rs' & h & Hi & -> & Hm)|(rs & k & kp & v & es & rs' & c1 & Hk & Hl & -> & Hm)]]%does_requested Hin.
  - by apply (nolog_hooks _ _ H) in Hin.
  - destruct (inserts_evict _ _ _ _ _ _ _ _ _ _ _ _ _ Hi Hin); [left; eauto|by right].
  - destruct (loads_evict _ _ _ _ _ _ _ _ _ _ _ Hl Hin) as [Hk2|?]; [|by right]. left. exists k, v. split; [done|].
    by apply (keqb_trans _ LW k kp k0).
Qed.
End seq5.
