(* The hits and misses of every shard are its lookups, and those of its lookups not yet counted. *)
From stdpp Require Import prelude list functions.
From Verif Require Export ConcExact WatchSpec.

Section concstats.
Context {P : Params} (LW : Lawful P) (PI : ptr_ids P = true).
Context {budget ghosts cap e : N}.
Notation K := (K P). Notation V := (V P). Notation RS := (RS P).
Notation shard := (shard P). Notation sys := (sys P). Notation pc := (pc P). Notation agent := (agent P).
Notation CInv := (CInv budget ghosts cap e). Notation Reach := (@Reach P (full P) budget ghosts cap e).
Implicit Types (s : shard) (k : K) (v : V) (rs : RS) (p : plh) (a b : nat) (l : loc) (j : nat) (y : sys) (x : pc) (ag : agent).

Definition b2n (b : bool) : N := if b then 1 else 0.
Lemma n_hits_app (h h' : list (sop P * sres P)) : n_hits (h ++ h') = (n_hits h + n_hits h')%N.
Proof. unfold n_hits. rewrite List.filter_app, app_length. lia. Qed.
Lemma n_misses_app (h h' : list (sop P * sres P)) : n_misses (h ++ h') = (n_misses h + n_misses h')%N.
Proof. unfold n_misses. rewrite List.filter_app, app_length. lia. Qed.
Lemma n_hits_one (z : sop P * sres P) : n_hits [z] = b2n (is_hit z).
Proof. unfold n_hits. simpl. by destruct (is_hit z). Qed.
Lemma n_misses_one (z : sop P * sres P) : n_misses [z] = b2n (is_miss z).
Proof. unfold n_misses. simpl. by destruct (is_miss z). Qed.

(* ---- counting agents ---- *)
Lemma count_insert {A} (f : A → bool) (l : list A) (i : nat) (x x' : A) : l !! i = Some x →
  (N.of_nat (length (List.filter f (<[i := x']> l))) + b2n (f x) = N.of_nat (length (List.filter f l)) + b2n (f x'))%N.
Proof.
  revert i. induction l as [|z l IH]; intros i Hi; [done|]. destruct i as [|i]; simpl in *.
  - injection Hi as ->. destruct (f x), (f x'); simpl; lia.
  - specialize (IH i Hi). destruct (f z); simpl; lia.
Qed.
Lemma filter_map_len {A B} (g : A → B) (f : B → bool) (l : list A) : length (List.filter f (map g l)) = length (List.filter (λ z, f (g z)) l).
Proof. induction l as [|z l IH]; [done|]. simpl. destruct (f (g z)); simpl; by rewrite IH. Qed.
Lemma map_pcs y y' a x' es us ag : moved y y' a x' es us → y_agents y !! a = Some ag →
  map a_pc (y_agents y') = <[a := x']> (map a_pc (y_agents y)).
Proof.
  intros M Ha. apply list_eq. intros b. rewrite list_lookup_fmap, (md_lookup _ _ _ _ _ _ b M).
  destruct (decide (b = a)) as [->|Hne].
  - rewrite Ha. simpl. rewrite list_lookup_insert; [done|]. rewrite map_length. by eapply lookup_lt_Some.
  - rewrite list_lookup_insert_ne by done. rewrite list_lookup_fmap. destruct (y_agents y !! b); simpl; [by rewrite eff_pc|done].
Qed.
Lemma uncounted_moved (f : pc → bool) y y' a x' es us ag : moved y y' a x' es us → y_agents y !! a = Some ag →
  (uncounted f y' + b2n (f (a_pc ag)) = uncounted f y + b2n (f x'))%N.
Proof.
  intros M Ha. unfold uncounted. rewrite <-!(filter_map_len a_pc f). rewrite (map_pcs _ _ _ _ _ _ _ M Ha).
  apply count_insert. by rewrite list_lookup_fmap, Ha.
Qed.

(* ---- one section ---- *)
Lemma xexec_stats s z s' r : Inv s → sync_sect z → (∀ k, z ≠ XCmd (CGet k)) → (∀ p, handle_of z = Some p → hgood s p) → xexec s z = Ok (s', r) →
  (sh_hits s' = sh_hits s + b2n (is_hit (op_of z, res_of r)))%N ∧ (sh_misses s' = sh_misses s + b2n (is_miss (op_of z, res_of r)))%N.
Proof.
  intros HI Hz Hg Hh Hx. assert (stats s' = stats s → is_hit (op_of z, res_of r) = false → is_miss (op_of z, res_of r) = false →
    (sh_hits s' = sh_hits s + b2n (is_hit (op_of z, res_of r)))%N ∧ (sh_misses s' = sh_misses s + b2n (is_miss (op_of z, res_of r)))%N) as Hsame.
  { intros Hst -> ->. unfold stats in Hst. injection Hst as -> ->. simpl. lia. }
  destruct z as [m|k|rs p ref v wl|p]; cbn [xexec] in Hx.
  - pose proof (exec_spec LW s m HI) as H. destruct (exec s m) as [[s1 o]|]; [|done]. cbn in Hx, H. injection Hx as <- <-.
    pose proof (st_stats _ _ _ _ H) as Hc. unfold counts in Hc. unfold sync_sect in Hz. apply Hsame; destruct m; simpl in *; try done; by destruct (Hg k).
  - pose proof (upsert_spec LW (λ _, True) s k HI ltac:(done)) as H.
    destruct (upsert_placeholder s (hash P k) k) as [[s1 r1]|]; [|done]. cbn in Hx, H.
    inversion H as [t ko vo r0 Hf Hq Hst Ht Hk Hv|q Hf Hq Hst Hph Hk|q Hf Hno HI1 Hcfg Hst Hit Hk Hid Hhs Hn Hph Hph0 Hsl Hus]; subst;
      unfold stats, tick in Hst; simpl in Hx; injection Hst as H1 H2; try (destruct (entry_at s1 t) as [[]|]); cbn in Hx; try done;
      injection Hx as <- <-; rewrite H1, H2; simpl; lia.
  - specialize (Hh p eq_refl). pose proof (hgood_owned PI s p HI Hh) as Ho.
    pose proof (replace_placeholder_spec LW (λ _, True) s (Lcs rs []) p ref v HI (hgood_good PI _ _ Hh)) as H.
    rewrite Ho in H. destruct (pend_of s (ph_id p)) as [k|] eqn:Ek.
    + specialize (H ltac:(done)). destruct (replace_placeholder s _ p ref v) as [[[s1 l1] o1]|]; [|done]. cbn in Hx, H.
      destruct H as (_ & Hst & _). injection Hx as <- <-. apply Hsame; [|by destruct o1..]. by apply cfg_static.
    + rewrite H in Hx by done. cbn in Hx. injection Hx as <- <-. by apply Hsame.
  - specialize (Hh p eq_refl).
    destruct (remove_placeholder_spec LW s p HI (hgood_good PI _ _ Hh)) as (s1 & E & HI' & Hit & Hst & _). rewrite E in Hx. cbn in Hx.
    injection Hx as <- <-. apply Hsame; [|done..]. by apply cfg_static.
Qed.

(* ---- one step ---- *)
Definition pays y y' x x' (a : nat) (es : list (cevent P)) : Prop := ∀ j s, shard_at y j = Some s → ∃ s', shard_at y' j = Some s' ∧
  (sh_hits s' + b2n (to_count_hit j x') = sh_hits s + b2n (to_count_hit j x) + n_hits (sections j (map (pair a) es)))%N ∧
  (sh_misses s' + b2n (to_count_miss j x') = sh_misses s + b2n (to_count_miss j x) + n_misses (sections j (map (pair a) es)))%N ∧
  (sh_hits s ≤ sh_hits s')%N ∧ (sh_misses s ≤ sh_misses s')%N.
Definition idle x : bool := match x with GBump _ _ _ _ | GHit _ _ _ | GMiss _ _ _ => false | _ => true end.
Lemma idle_hit j x : idle x = true → to_count_hit j x = false. Proof. by destruct x. Qed.
Lemma idle_miss j x : idle x = true → to_count_miss j x = false. Proof. by destruct x. Qed.
Lemma pays_same y y' x x' a es : y_cache y' = y_cache y → idle x = true → idle x' = true → forallb no_sec es = true → pays y y' x x' a es.
Proof.
  intros Hc Hx Hx' Hes j s Hs. exists s. split; [unfold shard_at; by rewrite Hc|].
  rewrite no_secs by done. rewrite !idle_hit, !idle_miss by done. unfold n_hits, n_misses; simpl. lia.
Qed.
Lemma pays_section y y' a z j y1 r x x' h : CInv y → sync_sect z → (∀ k, z ≠ XCmd (CGet k)) →
  (∀ p s, handle_of z = Some p → shard_at y j = Some s → hgood s p) →
  section y a j z = Ok (y1, r) → y_cache y' = y_cache y1 → idle x = true → idle x' = true → forallb no_sec h = true →
  pays y y' x x' a (EvSec j (op_of z) (res_of r) :: h).
Proof.
  intros HC Hz Hg Hh Hs Hc Hx Hx' Hn i s0 Hi. apply section_eq in Hs as (s & s' & Hj & Hxe & ->).
  destruct (ci_inv _ _ _ _ _ HC _ _ Hj) as [HI _]. rewrite one_sec by done. rewrite !idle_hit, !idle_miss by done.
  unfold shard_at. rewrite Hc. simpl. destruct (decide (j = i)) as [->|Hne].
  - rewrite Hj in Hi. injection Hi as <-. exists s'. split; [apply list_lookup_insert; by eapply lookup_lt_Some|].
    rewrite n_hits_one, n_misses_one. destruct (xexec_stats _ _ _ _ HI Hz Hg (λ p Hp, Hh p s Hp Hj) Hxe) as [-> ->]. simpl. lia.
  - exists s0. split; [by rewrite list_lookup_insert_ne|]. simpl. unfold n_hits, n_misses. simpl. lia.
Qed.
Lemma pays_count y y' a j s s' x x' es : shard_at y j = Some s → y_cache y' = with_shard (y_cache y) j s' → forallb no_sec es = true →
  (∀ i, i ≠ j → to_count_hit i x' = to_count_hit i x ∧ to_count_miss i x' = to_count_miss i x) →
  (sh_hits s' + b2n (to_count_hit j x') = sh_hits s + b2n (to_count_hit j x))%N →
  (sh_misses s' + b2n (to_count_miss j x') = sh_misses s + b2n (to_count_miss j x))%N →
  (sh_hits s ≤ sh_hits s')%N → (sh_misses s ≤ sh_misses s')%N → pays y y' x x' a es.
Proof.
  intros Hj Hc Hes Ho H1 H2 L1 L2 i s0 Hi. unfold shard_at. rewrite Hc. simpl. rewrite no_secs by done. destruct (decide (i = j)) as [->|Hne].
  - rewrite Hj in Hi. injection Hi as <-. exists s'. split; [apply list_lookup_insert; by eapply lookup_lt_Some|]. unfold n_hits, n_misses; simpl. lia.
  - exists s0. split; [by rewrite list_lookup_insert_ne|]. destruct (Ho i Hne) as [-> ->]. unfold n_hits, n_misses; simpl. lia.
Qed.

Lemma pc_goto y a x ag : y_agents y !! a = Some ag → a_pc <$> y_agents (goto y a x) !! a = Some x.
Proof. intros Ha. by rewrite lookup_goto, Ha, decide_True. Qed.
Local Ltac via HM := match goal with Hsame : idle _ = true → _ |- _ => apply Hsame;
  [done|inversion HM; subst; try congruence; try done|inversion HM; subst; try congruence; try done|try done] end.
Lemma act_pays dbg y a ag y' : CInv y → y_agents y !! a = Some ag → wants a (a_pc ag) = None → act dbg y a ag = Some (Ok y') →
  ∃ x' es us, moved y y' a x' es us ∧ pays y y' (a_pc ag) x' a es.
Proof.
  intros HC Ha Hw Hact. destruct (act_mv LW PI _ _ _ _ _ HC Ha Hw Hact) as (x' & es & us & HM & Hm).
  exists x', es, us. split; [done|].
  assert (∀ X ES, a_pc <$> y_agents y' !! a = Some X → y_log y' = y_log y ++ map (pair a) ES → pays y y' (a_pc ag) X a ES →
    pays y y' (a_pc ag) x' a es) as Hfix.
  { intros X ES HX HE. rewrite (md_log _ _ _ _ _ _ Hm) in HE. apply app_inv_head in HE. apply (inj (map (pair a))) in HE as <-.
    rewrite (md_lookup _ _ _ _ _ _ _ Hm), Ha in HX. simpl in HX. rewrite decide_True in HX by done. simpl in HX. by injection HX as ->. }
  revert Hact. unfold act. pose proof (po_shape _ _ (ci_pc _ _ _ _ _ HC _ _ Ha)) as Hsh.
  pose proof (λ j r p s, po_handle _ _ (ci_pc _ _ _ _ _ HC _ _ Ha) j p r s) as Hhg.
  assert (idle (a_pc ag) = true → idle x' = true → forallb no_sec es = true → y_cache y' = y_cache y → pays y y' (a_pc ag) x' a es) as Hsame.
  { intros ????. by apply pays_same. }
  destruct (a_pc ag) eqn:Hpc; try done.
  - (* PIn *) destruct (section y a j (XCmd m)) as [[y1 r]|] eqn:E; [|done]. cbn. destruct r as [o| | | | |]; try done. intros [= <-].
    pose proof E as E0. apply section_eq in E0 as (s & s' & _ & _ & E0).
    eapply Hfix; [eapply pc_goto; by rewrite E0| |eapply (pays_section y _ a (XCmd m) j y1 (XO o) _ _ [EvRet (RetOut o)] HC (proj1 Hsh)); try done].
    + rewrite E0. simpl. by rewrite <-app_assoc.
    + intros k [= ->]. by destruct Hsh as [_ Hsh], (Hsh k).
  - (* PAll *) destruct js; [|done]. intros [= <-]. via HM.
  - (* PAllIn *) destruct (section y a j (XCmd m)) as [[y1 r]|] eqn:E; [|done]. cbn. intros [= <-].
    pose proof E as E0. apply section_eq in E0 as (s & s' & _ & _ & E0).
    eapply Hfix; [eapply pc_goto; by rewrite E0| |eapply (pays_section y _ a (XCmd m) j y1 r _ _ [] HC (proj1 Hsh)); try done].
    + by rewrite E0.
    + intros k [= ->]. by destruct Hsh as [_ Hsh].
  - (* GIn *) unfold get_found. destruct (agent_shard y a ag j HC Ha) as [s Hs]; [rewrite Hpc; by left|].
    unfold read_shard. fold (shard_at y j). rewrite Hs. cbn. destruct (search_resident s (hash P k) k) as [[[i r]|]|]; cbn; [| |done]; intros [= <-].
    + eapply Hfix; [by eapply pc_goto|by instantiate (1 := [_])|]. intros j' s' Hj'. exists s'. split; [done|].
      rewrite one_sec by done. destruct (r_ref r <? MAX_F)%N; simpl; destruct (decide (j = j')) as [->|Hne];
        [rewrite bool_decide_true by done|rewrite bool_decide_false by done|rewrite bool_decide_true by done|rewrite bool_decide_false by done];
        unfold n_hits, n_misses; simpl; lia.
    + eapply Hfix; [by eapply pc_goto|by instantiate (1 := [_])|]. intros j' s' Hj'. exists s'. split; [done|].
      rewrite one_sec by done. simpl; destruct (decide (j = j')) as [->|Hne];
        [rewrite bool_decide_true by done|rewrite bool_decide_false by done];
        unfold n_hits, n_misses; simpl; lia.
  - (* GBump *) destruct (po_bump _ _ (ci_pc _ _ _ _ _ HC _ _ Ha) j i v c Hpc) as (s & r & Hs & Hr).
    unfold read_shard. fold (shard_at y j). rewrite Hs. cbn. unfold fetch_add. rewrite (entry_at_ok _ _ _ Hr). cbn. intros [= <-].
    eapply Hfix; [by eapply pc_goto|by instantiate (1 := []); rewrite app_nil_r|]. by eapply (pays_count _ _ _ j s).
  - (* GHit *) unfold get_hit. destruct (agent_shard y a ag j HC Ha) as [s Hs]; [rewrite Hpc; by left|].
    unfold read_shard. fold (shard_at y j). rewrite Hs. cbn. intros [= <-].
    eapply Hfix; [by eapply pc_goto|by instantiate (1 := [_])|]. eapply (pays_count _ _ _ j s (record_hit s)); try done.
    + intros i Hi. simpl. by rewrite bool_decide_false.
    + simpl. rewrite bool_decide_true by done. simpl. lia.
    + simpl. lia.
  - (* GMiss *) unfold get_miss. destruct (agent_shard y a ag j HC Ha) as [s Hs]; [rewrite Hpc; by left|].
    unfold read_shard. fold (shard_at y j). rewrite Hs. cbn. intros [= <-].
    destruct c.
    + eapply Hfix; [by eapply pc_goto|by instantiate (1 := [_])|]. eapply (pays_count _ _ _ j s (record_miss s)); try done.
      * intros i Hi. simpl. by rewrite bool_decide_false.
      * simpl. rewrite bool_decide_true by done. simpl. lia.
      * simpl. lia.
    + eapply Hfix; [by eapply pc_goto|by instantiate (1 := []); rewrite app_nil_r|]. eapply (pays_count _ _ _ j s (record_miss s)); try done.
      * intros i Hi. simpl. by rewrite bool_decide_false.
      * simpl. rewrite bool_decide_true by done. simpl. lia.
      * simpl. lia.
    + eapply Hfix; [by eapply pc_goto|by instantiate (1 := []); rewrite app_nil_r|]. eapply (pays_count _ _ _ j s (record_miss s)); try done.
      * intros i Hi. simpl. by rewrite bool_decide_false.
      * simpl. rewrite bool_decide_true by done. simpl. lia.
      * simpl. lia.
  - (* JIn *) destruct (section y a j (XJoin k)) as [[y1 r]|] eqn:E; [|done]. pose proof E as E0. apply section_eq in E0 as (s & s' & _ & _ & E0).
    assert (y_log y1 = y_log y ++ [(a, EvSec j (OJoin k) (res_of r))]) as Hl1 by (by rewrite E0).
    cbn. destruct r as [o|v|p|p|v|]; try done; intros [= <-].
    + eapply Hfix; [eapply pc_goto; by rewrite E0| |eapply (pays_section y _ a (XJoin k) j y1 (XHit v) _ _ [EvRet (RetVal v None)] HC I); try done].
      simpl. rewrite Hl1. by rewrite <-app_assoc.
    + eapply Hfix; [eapply pc_goto; by rewrite E0| |eapply (pays_section y _ a (XJoin k) j y1 _ _ _ [] HC I); try done]. done.
    + destruct dbg; cbn.
      * eapply Hfix; [eapply pc_goto; by rewrite E0| |eapply (pays_section y _ a (XJoin k) j y1 _ _ _ [] HC I); try done]. done.
      * eapply Hfix; [eapply pc_goto; by rewrite E0| |eapply (pays_section y _ a (XJoin k) j y1 _ _ _ [EvGuard (pl j p)] HC I); try done].
        simpl. rewrite Hl1. by rewrite <-app_assoc.
  - (* SIn *) destruct (at_load y (pl j p)); try done. intros [= <-]. via HM; by destruct sm.
  - (* JPushIn *) unfold push_waiter. destruct (at_load y (pl j p)) eqn:El; try done; intros [= <-].
    + via HM; by destruct md as [[]|].
    + via HM.
  - intros [= <-]. via HM.
  - destruct (a_token ag); [|done]. intros [= <-]. via HM.
  - intros [= <-]. via HM.
  - intros [= <-]. via HM.
  - destruct (a_flag ag) eqn:Ef.
    + intros [= <-]. via HM.
    + unfold leave. destruct (list_find _ _) as [[i w]|] eqn:E; [|done]. cbn. intros [= <-]. via HM.
  - destruct (at_load y (pl j p)) eqn:El; try done; intros [= <-].
    + via HM; try (match goal with H : starts _ _ _ _ _ _ |- _ => by destruct H end). unfold start_loading. by destruct dbg.
    + via HM; try (match goal with H : starts _ _ _ _ _ _ |- _ => by destruct H end).
  - intros [= <-]. via HM. by destruct (a_flag ag).
  - destruct (a_flag ag) eqn:Ef.
    + destruct (at_load y (pl j p)) eqn:El; intros [= <-]; via HM; try (match goal with H : starts _ _ _ _ _ _ |- _ => by destruct H end).
      unfold start_loading. by destruct dbg.
    + unfold leave. destruct (list_find _ _) as [[i w]|] eqn:E; [|done]. cbn. intros [= <-]. via HM.
      all: try (match goal with H : starts _ _ _ _ _ _ |- _ => by destruct H end).
  - intros [= <-]. via HM.
  - destruct ws as [|[b [|]] ws]; [destruct nm| |]; try done; intros [= <-]; via HM.
  - intros [= <-]. via HM.
  - intros [= <-]. via HM.
  - (* FillIn *) destruct (section y a j (XFill rs p referenced v wl)) as [[y1 r]|] eqn:E; [|done].
    pose proof E as E0. apply section_eq in E0 as (s & s' & _ & _ & E0).
    assert (y_log y1 = y_log y ++ [(a, EvSec j (OFill rs (ph_id p) v wl) (res_of r))]) as Hl1 by (by rewrite E0).
    assert (∀ q s0, handle_of (P:=P) (XFill rs p referenced v wl) = Some q → shard_at y j = Some s0 → hgood s0 q) as Hh.
    { intros q s0 [= <-] Hs0. by eapply Hhg. }
    cbn. destruct r as [o| | | |v'|]; try done; intros [= <-].
    + eapply Hfix; [eapply pc_goto; by rewrite E0| |eapply (pays_section y _ a (XFill rs p referenced v wl) j y1 (XO o) _ _ [EvRet (RetOut o)] HC I ltac:(done) Hh E); try done].
      simpl. rewrite Hl1. by rewrite <-app_assoc.
    + eapply Hfix; [eapply pc_goto; by rewrite E0| |eapply (pays_section y _ a (XFill rs p referenced v wl) j y1 (XStale v') _ _ [EvRet (RetStale v')] HC I ltac:(done) Hh E); try done].
      simpl. rewrite Hl1. by rewrite <-app_assoc.
  - (* DIn *) destruct (list.last (waiting_on y (pl j p))) as [w|] eqn:Hl.
    + destruct (step_give y a ag j p w HC Ha Hpc Hl) as [Hld _]. rewrite Hld. cbn. intros [= <-].
      eapply Hfix; [by eapply pc_goto|by instantiate (1 := [_])|]. by apply pays_same.
    + destruct (section (with_ph y (pl j p) (PSt [] Terminated)) a j (XDrop p)) as [[y1 r]|] eqn:E; [|done]. cbn. intros [= <-].
      apply section_eq in E as (s & s' & Hs & Hx & ->). change (shard_at y j = Some s) in Hs.
      assert (section y a j (XDrop p) = Ok (logged (with_cache y (with_shard (y_cache y) j s')) a (EvSec j (ODrop (ph_id p)) (res_of r)), r)) as Hsec.
      { unfold section, on_shard. fold (shard_at y j). rewrite Hs. cbn [unwrap rbind]. rewrite Hx. done. }
      eapply Hfix; [by eapply pc_goto| |eapply (pays_section y _ a (XDrop p) j _ r _ _ [EvEnd (pl j p); EvRet RetDrop] HC I); [done| |exact Hsec|done..]].
      * simpl. by rewrite <-!app_assoc.
      * intros q s0 [= <-] Hs0. by eapply Hhg.
Qed.

(* ---- every execution ---- *)
Definition balanced y : Prop := ∀ j s, shard_at y j = Some s →
  (sh_hits s + uncounted (to_count_hit j) y = n_hits (sections j (y_log y)))%N ∧
  (sh_misses s + uncounted (to_count_miss j) y = n_misses (sections j (y_log y)))%N.
Lemma sections_app j (g g' : list (nat * cevent P)) : sections j (g ++ g') = sections j g ++ sections j g'.
Proof. unfold sections. by rewrite map_app, concat_app. Qed.
Lemma shard_before y y' j s' : length (sc_shards (y_cache y')) = length (sc_shards (y_cache y)) → shard_at y' j = Some s' →
  ∃ s, shard_at y j = Some s.
Proof. intros Hl Hs. apply lookup_lt_Some in Hs. rewrite Hl in Hs. by apply lookup_lt_is_Some in Hs. Qed.
Lemma balanced_moved y y' a ag x' es us : moved y y' a x' es us → y_agents y !! a = Some ag → pays y y' (a_pc ag) x' a es →
  balanced y → balanced y'.
Proof.
  intros M Ha Hp Hb j s' Hs'. destruct (shard_before _ _ _ _ (md_len _ _ _ _ _ _ M) Hs') as [s Hs].
  destruct (Hp _ _ Hs) as (s1 & Hs1 & H1 & H2 & _). rewrite Hs' in Hs1. injection Hs1 as <-.
  destruct (Hb _ _ Hs) as [B1 B2].
  rewrite (md_log _ _ _ _ _ _ M), sections_app, n_hits_app, n_misses_app.
  pose proof (uncounted_moved (to_count_hit j) _ _ _ _ _ _ _ M Ha). pose proof (uncounted_moved (to_count_miss j) _ _ _ _ _ _ _ M Ha). lia.
Qed.
Lemma goto_pays y a x x' : idle x = true → idle x' = true → pays y (goto y a x') x x' a [].
Proof. intros. by apply pays_same. Qed.
Lemma cstep_balanced dbg y lb y' : CInv y → cstep dbg y lb = Some (Ok y') → balanced y → balanced y'.
Proof.
  intros HC Hs Hb.
  assert (∀ a ag x, y_agents y !! a = Some ag → idle (a_pc ag) = true → idle x = true → balanced (goto y a x)) as Hgo.
  { intros a ag x Ha Hi Hx. eapply balanced_moved; [apply moved_goto|done|by apply goto_pays|done]. }
  destruct lb as [c|a|a|d|a wk|a|a rs v wl|a]; simpl in Hs.
  - destruct (first_pc y c) as [[x|]|] eqn:E; try done. cbn in Hs. injection Hs as <-. intros j s Hj. change (shard_at y j = Some s) in Hj.
    destruct (Hb _ _ Hj) as [B1 B2].
    assert (idle x = true) as Hx.
    { unfold first_pc in E. destruct c as [m|k to|k]; [destruct (sync_cmd m); [destruct (key_of m)|done]|..]; simpl in E;
        try (destruct (shard_for _ _); [|done]); simpl in E; injection E as <-; try done. by destruct m. }
    simpl. rewrite sections_app, n_hits_app, n_misses_app, <-B1, <-B2. unfold uncounted. simpl. rewrite !List.filter_app, !app_length. simpl.
    rewrite idle_hit, idle_miss by done. simpl. unfold n_hits, n_misses. simpl. lia.
  - unfold go in Hs. destruct (y_agents y !! a) as [ag|] eqn:Ha; [|done]. destruct (wants a (a_pc ag)) as [h|] eqn:Hw.
    + destruct (free y h) eqn:Hf; [|done]. injection Hs as <-. eapply Hgo; [done|..]; destruct (a_pc ag) eqn:Hpc; try done.
      * by destruct js.
      * by destruct ws as [|[? []] ?].
    + destruct (act_pays _ _ _ _ _ HC Ha Hw Hs) as (x' & es & us & M & Hp). by eapply balanced_moved.
  - destruct (y_agents y !! a) as [ag|] eqn:Ha; [|done]. simpl in Hs. destruct (a_pc ag) eqn:Hpc; try done. injection Hs as <-. eapply Hgo; by rewrite ?Hpc.
  - injection Hs as <-. done.
  - destruct (y_agents y !! a) as [ag|] eqn:Ha; [|done]. simpl in Hs. destruct (a_pc ag) eqn:Hpc; try done; injection Hs as <-; eapply Hgo; by rewrite ?Hpc.
  - destruct (y_agents y !! a) as [ag|] eqn:Ha; [|done]. simpl in Hs. destruct (a_pc ag) eqn:Hpc; try done; injection Hs as <-; [|eapply Hgo; by rewrite ?Hpc].
    eapply balanced_moved; [apply moved_finish|done|by apply pays_same; rewrite ?Hpc|done].
  - destruct (y_agents y !! a) as [ag|] eqn:Ha; [|done]. simpl in Hs. destruct (a_pc ag) eqn:Hpc; try done; injection Hs as <-; eapply Hgo; by rewrite ?Hpc.
  - destruct (y_agents y !! a) as [ag|] eqn:Ha; [|done]. simpl in Hs. destruct (a_pc ag) eqn:Hpc; try done; injection Hs as <-; eapply Hgo; by rewrite ?Hpc.
Qed.
End concstats.
