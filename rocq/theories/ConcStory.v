(* What the legal histories of a shard say about its items: where the values come from, which keys
   may be there, and how heavy they are. *)
From stdpp Require Import prelude list functions.
From Verif Require Export ConcSafe.

Section story.
Context {P : Params} (LW : Lawful P) {cap budget : N}.
Notation K := (K P). Notation V := (V P). Notation RS := (RS P).
Notation legal := (legal cap budget). Notation sdoes := (sdoes cap budget).
Implicit Types (k : K) (v : V) (rs : RS) (d : sst P) (h : list (sop P * sres P)) (id : N).

Lemma story_snoc h z : story (h ++ [z]) = story h ++ writes (rev h) z.
Proof. unfold story. by rewrite rev_app_distr. Qed.

(* the keys of the pending loads: not cached, pairwise different *)
Record PInv h d : Prop := {
  pi_none : ∀ id k, ss_pend d id = Some k → find_key k (ss_items d) = None;
  pi_one : ∀ id k id' k', ss_pend d id = Some k → ss_pend d id' = Some k' → keqb P k k' = true → id = id';
  pi_key : ∀ id k, ss_pend d id = Some k → load_key (rev h) id = Some k;
}.
Lemma key_skip h (z : sop P * sres P) id : (∀ k, z ≠ (OJoin k, SNew id)) → load_key (z :: h) id = load_key h id.
Proof. intros H. simpl. destruct z as [[m|k|rs i v wl|i] [o|v0|i0|i0|v0|]]; try done. rewrite decide_False; [done|]. intros ->. by apply (H k). Qed.
Lemma pinv_keep h (z : sop P * sres P) d c n : PInv h d → (∀ k id, z ≠ (OJoin k, SNew id)) → c ≡ₚ ss_items d → ∀ pd,
  (∀ id k, pd id = Some k → ss_pend d id = Some k) → PInv (h ++ [z]) (SSt c pd n).
Proof.
  intros [A B C] Hz Hc pd Hpd. split; simpl.
  - intros id k H%Hpd. apply A in H. apply find_key_None. intros q Hq. rewrite Hc in Hq. by apply (proj1 (find_key_None k _) H).
  - intros id k id' k' H1%Hpd H2%Hpd. by apply (B id k id' k').
  - intros id k H%Hpd. rewrite rev_app_distr. simpl app. rewrite key_skip by done. by apply C.
Qed.
Lemma pinv h d : legal h d → PInv h d.
Proof.
  induction 1 as [|h d x r d' HL IH Hs]; [by split|]. destruct d as [c pd n], d' as [c' pd' n'].
  destruct x as [m|k|rs id v wl|id], r as [o|v0|i|i|v0|]; simpl in Hs; try done.
  - destruct Hs as (Hm & Hd & Hp & ->). assert (∀ id k, pd' id = Some k → pd id = Some k) as Hpd.
    { intros id k. rewrite Hp. destruct m; simpl; try done.
      - unfold pdel. destruct (pd id); [|done]. by case_match.
      - case_match; [done|]. unfold pdel. destruct (pd id); [|done]. by case_match. }
    destruct IH as [A B C]. split; simpl in *.
    + intros id k H. pose proof (A _ _ (Hpd _ _ H)) as Hn. destruct (creates m k) eqn:Hcr; [|by eapply (does_absent LW)].
      destruct m as [?|?|?|? ?|? ?|k0|? ? ? ? ?|rs k0 v wl|?| | | |? ? ?|? ? ? ?|? ? ?|? ? ? ?]; try done. simpl in Hcr, Hp, Hd.
      rewrite Hp in H. destruct (admission budget rs k0 v) as [[[rs1 es1] v1] b] eqn:Ha. simpl in H. destruct b.
      * destruct Hd as (es & rs' & Hi & _). inversion Hi; subst; try congruence.
        -- apply find_key_None. intros q Hq. match goal with E : c' ≡ₚ c |- _ => rewrite E in Hq end. by apply (proj1 (find_key_None k _) Hn).
        -- apply find_key_None. intros q Hq. match goal with E : c' ≡ₚ del _ c |- _ => rewrite E in Hq end. destruct q as [kq vq]. apply del_elem in Hq as [Hq _].
           by apply (proj1 (find_key_None k _) Hn (kq, vq)).
      * exfalso. unfold pdel in H. destruct (pd id) as [k1|]; [|done]. destruct (keqb P k0 k1) eqn:E; [done|]. injection H as ->.
        apply (keqb_sym _ LW) in Hcr. congruence.
    + intros id k id' k' H1%Hpd H2%Hpd. by apply (B id k id' k').
    + intros id k H%Hpd. rewrite rev_app_distr. simpl. destruct m; by apply C.
  - destruct Hs as (_ & Hc & Hp & ->). eapply pinv_keep; [done|done|done|]. intros. by rewrite <-Hp.
  - destruct Hs as (_ & _ & Hc & Hp & ->). eapply pinv_keep; [done|done|done|]. intros. by rewrite <-Hp.
  - destruct Hs as (Hv & Hno & -> & Hc & Hp & ->). pose proof (legal_known _ _ HL) as Hkn. simpl in Hkn. destruct IH as [A B C]. simpl in *.
    assert (find_key k c = None) as Hv' by (by apply value_none).
    split; simpl.
    + intros id k1. rewrite Hp. unfold pset. case_decide.
      * intros [= <-]. apply find_key_None. intros q Hq. rewrite Hc in Hq. by apply (proj1 (find_key_None k _) Hv').
      * intros Hk1. apply find_key_None. intros q Hq. rewrite Hc in Hq. by apply (proj1 (find_key_None k1 _) (A _ _ Hk1)).
    + intros id k1 id' k2. rewrite !Hp. unfold pset. case_decide; case_decide; subst; try done.
      * intros [= <-] H2 Hk. by rewrite (Hno _ _ H2) in Hk.
      * intros H1 [= <-] Hk. apply (keqb_sym _ LW) in Hk. by rewrite (Hno _ _ H1) in Hk.
      * apply B.
    + intros id k1. rewrite Hp. unfold pset. rewrite rev_app_distr. simpl. case_decide; subst.
      * intros [= <-]. by rewrite decide_True.
      * intros Hk1. rewrite decide_False by done. by apply C.
  - destruct Hs as (k & es & rs' & Hk & Hl & _ & Hp & ->). destruct IH as [A B C]. simpl in *. split; simpl.
    + intros id1 k1. rewrite Hp. unfold pset. case_decide; [done|]. intros Hk1. apply find_key_None. intros [kq vq] Hq. simpl.
      destruct (loads_origin _ _ _ _ _ _ _ _ _ _ _ Hl Hq) as [(-> & _)|(v1 & Hin & _)].
      * destruct (keqb P k1 k) eqn:E; [|done]. by rewrite (B _ _ _ _ Hk1 Hk E) in *.
      * by apply (proj1 (find_key_None k1 _) (A _ _ Hk1) (kq, v1)).
    + intros id1 k1 id2 k2. rewrite !Hp. unfold pset. case_decide; [done|]. case_decide; [done|]. apply B.
    + intros id1 k1. rewrite Hp. unfold pset. rewrite rev_app_distr. simpl. case_decide; [done|]. apply C.
  - destruct Hs as (_ & _ & Hc & Hp & ->). eapply pinv_keep; [done|done|done|]. intros. by rewrite <-Hp.
  - destruct Hs as (Hc & Hp & ->). eapply pinv_keep; [done|done|done|]. intros id1 k. rewrite Hp. unfold pset. by case_decide.
Qed.

(* where the values come from *)
Lemma legal_sourced h d : legal h d → sourced (story h) (ss_items d).
Proof.
  induction 1 as [|h d x r d' HL IH Hs]; [by intros k v ?%elem_of_nil|]. pose proof (pinv _ _ HL) as HP. destruct d as [c pd n], d' as [c' pd' n'].
  rewrite story_snoc. simpl in IH. destruct x as [m|k|rs id v wl|id], r as [o|v0|i|i|v0|]; simpl in Hs |- *; try done; rewrite ?app_nil_r.
  - destruct Hs as (Hm & Hd & _). by eapply (sourced_does LW).
  - destruct Hs as (_ & Hc & _). by eapply (sourced_perm).
  - destruct Hs as (_ & _ & Hc & _). by eapply (sourced_perm).
  - destruct Hs as (_ & _ & _ & Hc & _). by eapply (sourced_perm).
  - destruct Hs as (k & es & rs' & Hk & Hl & _). rewrite (pi_key _ _ HP _ _ Hk). eapply (sourced_loads LW); [exact Hl|apply (keqb_refl _ LW)| |done].
    by apply (pi_none _ _ HP _ _ Hk).
  - destruct Hs as (_ & _ & Hc & _). by eapply (sourced_perm).
  - destruct Hs as (Hc & _). by eapply (sourced_perm).
Qed.

(* which keys may be there *)
Definition in_place (R : K → Prop) (z : sop P * sres P) : Prop :=
  match z.1 with OCmd m => match key_of m with Some k => R k | None => True end | OJoin k => R k | _ => True end.
Definition keys_in (R : K → Prop) (d : sst P) : Prop := (∀ k v, (k, v) ∈ ss_items d → R k) ∧ (∀ id k, ss_pend d id = Some k → R k).
Lemma sdoes_place (R : K → Prop) d x r d' : (∀ k k', keqb P k k' = true → R k' → R k) → sdoes d x r d' → in_place R (x, r) →
  keys_in R d → keys_in R d'.
Proof.
  intros HR Hs Hx [H1 H2]. destruct d as [c pd n], d' as [c' pd' n']. unfold keys_in. simpl in H1, H2.
  assert (c' ≡ₚ c → ∀ k v, (k, v) ∈ c' → R k) as Hperm. { intros E k v. rewrite E. apply H1. }
  destruct x as [m|k|rs id v wl|id], r as [o|v0|i|i|v0|]; simpl in Hs |- *; try done.
  - destruct Hs as (Hm & Hd & Hp & _). split.
    + intros k v Hin. destruct (creates m k) eqn:Hcr.
      * destruct m as [?|?|?|? ?|? ?|k0|? ? ? ? ?|rs k0 v1 wl|?| | | |? ? ?|? ? ? ?|? ? ?|? ? ? ?]; try done. simpl in *. by eapply HR.
      * destruct (find_key k c) as [[ko vo]|] eqn:Hk.
        -- apply find_key_Some in Hk as [Hin' Hk]. eapply HR; [exact Hk|by eapply H1].
        -- pose proof (does_absent LW _ _ _ _ _ _ _ Hd Hcr Hk) as Hf'. pose proof (SeqProofs2.find_none _ _ _ _ Hf' Hin) as E.
           by rewrite (keqb_refl _ LW) in E.
    + intros id k. rewrite Hp. intros H. apply (H2 id). revert H. destruct m; simpl; try done.
      * unfold pdel. destruct (pd id); [|done]. by case_match.
      * case_match; [done|]. unfold pdel. destruct (pd id); [|done]. by case_match.
  - destruct Hs as (_ & Hc & Hp & _). split; [by apply Hperm|]. intros id k'. rewrite Hp. apply H2.
  - destruct Hs as (_ & _ & Hc & Hp & _). split; [by apply Hperm|]. intros id k'. rewrite Hp. apply H2.
  - destruct Hs as (_ & _ & _ & Hc & Hp & _). split; [by apply Hperm|]. intros id k'. rewrite Hp. unfold pset. case_decide; [by intros [= <-]|apply H2].
  - destruct Hs as (k & es & rs' & Hk & Hl & _ & Hp & _). split.
    + intros k' v' Hin. destruct (loads_origin _ _ _ _ _ _ _ _ _ _ _ Hl Hin) as [(-> & _)|(v1 & Hin' & _)]; [by eapply H2|by eapply H1].
    + intros id' k'. rewrite Hp. unfold pset. case_decide; [done|apply H2].
  - destruct Hs as (_ & _ & Hc & Hp & _). split; [by apply Hperm|]. intros id' k'. rewrite Hp. apply H2.
  - destruct Hs as (Hc & Hp & _). split; [by apply Hperm|]. intros id' k'. rewrite Hp. unfold pset. case_decide; [done|apply H2].
Qed.
Lemma legal_place (R : K → Prop) h d : (∀ k k', keqb P k k' = true → R k' → R k) → legal h d → Forall (in_place R) h → keys_in R d.
Proof.
  intros HR. induction 1 as [|h d x r d' HL IH Hs]; [by split; [intros k v ?%elem_of_nil|]|]. intros Hf. apply Forall_app in Hf as [Hf Hz].
  inversion Hz as [|? ? Hx _]; subst. eapply sdoes_place; [done|done|done|by apply IH].
Qed.

(* how heavy they are *)
Lemma legal_uwsum h d : (budget ≤ cap)%N → legal h d → (uwsum (ss_items d) ≤ cap)%N.
Proof.
  intros Hb. induction 1 as [|h d x r d' HL IH Hs]; [apply N.le_0_l|]. destruct d as [c pd n], d' as [c' pd' n']. simpl in IH.
  destruct x as [m|k|rs id v wl|id], r as [o|v0|i|i|v0|]; simpl in Hs |- *; try done.
  - destruct Hs as (Hm & Hd & _). apply (does_uwsum cap budget c m o c' Hb); [by destruct m|done|done].
  - destruct Hs as (_ & -> & _). done.
  - destruct Hs as (_ & _ & -> & _). done.
  - destruct Hs as (_ & _ & _ & -> & _). done.
  - destruct Hs as (k & es & rs' & _ & Hl & _). by eapply loads_uwsum.
  - destruct Hs as (_ & _ & -> & _). done.
  - destruct Hs as (-> & _). done.
Qed.
End story.

Section concstory.
Context {P : Params} (LW : Lawful P) (PI : ptr_ids P = true).
Context {budget ghosts cap e : N}.
Notation K := (K P). Notation V := (V P). Notation RS := (RS P).
Notation shard := (shard P). Notation sys := (sys P). Notation Reach := (@Reach P (full P) budget ghosts cap e).
Implicit Types (s : shard) (k : K) (v : V) (a b : nat) (l : loc) (j : nat) (y : sys) (g : list (nat * cevent P)).

Lemma conc_sourced y j s : Reach y → shard_at y j = Some s → sourced (story (sections j (y_log y))) (sh_iter s).
Proof.
  intros HR Hs. destruct (ci_legal _ _ _ _ _ (rc_c _ HR) j s Hs) as (d & HL & E & _). change (legal cap budget (sections j (y_log y)) d) in HL. simpl in E. rewrite <-E. apply (legal_sourced LW _ _ HL).
Qed.
Lemma conc_uwsum y j s : (budget ≤ cap)%N → Reach y → shard_at y j = Some s → (uwsum (sh_iter s) ≤ cap)%N.
Proof.
  intros Hb HR Hs. destruct (ci_legal _ _ _ _ _ (rc_c _ HR) j s Hs) as (d & HL & E & _). change (legal cap budget (sections j (y_log y)) d) in HL. simpl in E. rewrite <-E. by eapply legal_uwsum.
Qed.
Lemma conc_located y j s k v : Reach y → shard_at y j = Some s → (k, v) ∈ sh_iter s → j = shard_idx (sc_mask (y_cache y)) k.
Proof.
  intros HR Hs Hin. destruct (ci_legal _ _ _ _ _ (rc_c _ HR) j s Hs) as (d & HL & E & _). change (legal cap budget (sections j (y_log y)) d) in HL. simpl in E. rewrite <-E in Hin.
  refine (proj1 (legal_place LW (λ k, j = shard_idx (sc_mask (y_cache y)) k) _ _ _ HL _) k v Hin).
  - intros k1 k2 Hk ->. symmetry. by apply (idx_keqb LW).
  - apply Forall_forall. intros [o r] Hz. apply in_sections in Hz as [a Ha]. destruct (log_fits _ _ _ HR Ha eq_refl) as (ag & _ & Hf).
    unfold in_place. simpl. destruct o as [m|k1|rs id v1 wl|id]; try done; [|by destruct Hf as [_ ->]].
    destruct Hf as (_ & _ & Hf). by destruct (key_of m).
Qed.
(* a value that was read was there *)
Lemma read_source y g1 a j k v g2 : Reach y →
  y_log y = g1 ++ (a, EvSec j (OCmd (CGet k)) (SO (plain (RVal (Some v))))) :: g2 ∨ y_log y = g1 ++ (a, EvSec j (OJoin k) (SHit v)) :: g2 →
  came_from (story (sections j g1)) k v.
Proof.
  intros HR E.
  assert (j < length (sc_shards (y_cache y))) as Hlt.
  { destruct E as [E|E].
    - assert ((a, EvSec j (OCmd (CGet k)) (SO (plain (RVal (Some v))))) ∈ y_log y) as Hin by (rewrite E; apply elem_of_app; right; left).
      destruct (log_fits _ _ _ HR Hin eq_refl) as (ag & _ & _ & _ & ->). rewrite (ci_len _ _ _ _ _ (rc_c _ HR)), (ci_mask _ _ _ _ _ (rc_c _ HR)). apply shard_idx_lt.
    - assert ((a, EvSec j (OJoin k) (SHit v)) ∈ y_log y) as Hin by (rewrite E; apply elem_of_app; right; left).
      by destruct (join_shard _ _ _ _ _ HR Hin) as [_ ?]. }
  destruct (legal_at y j HR Hlt) as (s & d9 & _ & HL & _).
  assert (∃ d, legal cap budget (sections j g1) d ∧ value_of k (ss_items d) = Some v) as (d & Hd & Hv).
  { destruct E as [E|E]; rewrite E, sections_app, sections_cons, sec_of_same in HL; apply legal_mid in HL as (d & d' & HL & Hs & _); simpl in Hs;
      exists d; (split; [done|]); destruct d as [c0 p0 n0], d' as [c1 p1 n1]; simpl in Hs.
    - destruct Hs as (_ & [_ Ho] & _). injection Ho as ->. done.
    - by destruct Hs as (? & _). }
  unfold value_of in Hv. destruct (find_key k (ss_items d)) as [[k0 v0]|] eqn:Hf; [|done]. simpl in Hv. injection Hv as ->.
  apply find_key_Some in Hf as [Hin Hk]. simpl in Hk. eapply (came_from_cong LW); [by apply (legal_sourced LW _ _ Hd)|]. by apply (keqb_sym _ LW).
Qed.
End concstory.
