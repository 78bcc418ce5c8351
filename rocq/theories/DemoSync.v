(* Concrete instances for the sync cache. *)
From Verif Require Export Demo SyncSpec.
Local Open Scope N_scope.

(* keys, values and request states are numbers; keys collide; the upper half of the hash, which
   chooses the shard, is the key modulo 8 *)
Definition sinst (w : N → N → N) (pin : N → N → bool) (be : N → N → N → N * N) : Params := {|
  K := N; V := N; RS := N;
  keqb := N.eqb;
  hash := λ k, (k mod 8) * two32 + k mod 2;
  weight := w;
  pinned := pin;
  before_evict := be;
  on_evict := λ rs _ _, rs + 1000;
  probe := λ T h, (List.filter (λ p, p.1 =? h) (tpairs T)).*2;
  titer := λ T, (tpairs T).*2;
  grows := λ _, true;
  ptr_ids := true;
|}.
Lemma sinst_lawful w pin be : Lawful (sinst w pin be).
Proof.
  split; simpl.
  - intros. apply N.eqb_refl.
  - intros k k' H. apply N.eqb_eq in H as ->. apply N.eqb_refl.
  - intros a b c Hab Hbc. apply N.eqb_eq in Hab as ->. done.
  - intros k k' H. by apply N.eqb_eq in H as ->.
  - intros T h t Hin. apply elem_of_list_fmap in Hin as (p & -> & Hp). apply elem_of_list_In, filter_In in Hp as [Hp _].
    apply elem_of_list_fmap. exists p. split; [done|]. by apply elem_of_list_In.
  - intros T h t Hin. apply elem_of_list_fmap. exists (h, t). split; [done|]. apply elem_of_list_In, filter_In. split; [by apply elem_of_list_In|].
    simpl. apply N.eqb_refl.
  - done.
Qed.
(* as W and H of Demo.v *)
Definition SW : Params := sinst (λ _ v, v) (λ _ _, false) (λ rs _ v, (rs, v)).
Definition SH : Params := sinst (λ _ v, v) (λ k _, 100 <=? k)
  (λ rs _ v, (rs + 1, if v =? 7 then 0 else if 50 <? v then v / 2 else v)).
Definition lawSW : Lawful SW := sinst_lawful _ _ _.
Definition lawSH : Lawful SH := sinst_lawful _ _ _.

Definition sstate_of {P : Params} (budget ghosts cap e : N) (h : list (scmd P)) : scache P :=
  match sc_run (sc_fresh budget ghosts cap (2 ^ e)) h with Ok x => x.1 | Fail _ => sc_fresh budget ghosts cap (2 ^ e) end.
Definition souts_of {P : Params} (budget ghosts cap e : N) (h : list (scmd P)) : list (out P) :=
  match sc_run (sc_fresh budget ghosts cap (2 ^ e)) h with Ok x => x.2 | Fail _ => [] end.
Definition sins {P : Params} : RS P → K P → V P → scmd P := λ rs k v, SKey k (CInsert rs k v false).
(* a history on two shards, with evictions, loads and pinned items *)
Definition smixed : list (scmd SH) :=
  [ sins (P:=SH) 0 1 3; sins (P:=SH) 0 2 4; SKey (P:=SH) 1 (CGet (P:=SH) 1); sins (P:=SH) 0 100 5; sins (P:=SH) 0 3 7;
    SValueOrGuard (P:=SH) 0 5 (SInsert (P:=SH) 6 false); SGetOrInsert (P:=SH) 0 6 (Some 5); SGetOrInsert (P:=SH) 0 6 (Some 9);
    SValueOrGuard (P:=SH) 0 8 (SDrop (P:=SH)); SGetOrInsert (P:=SH) 0 10 None; SAll (P:=SH) (CRetain (P:=SH) (λ k _, negb (k =? 2)));
    SKey (P:=SH) 3 (CRemove (P:=SH) 3); SKey (P:=SH) 1 (CReplace (P:=SH) 0 1 4 false false); sins (P:=SH) 0 7 5;
    sins (P:=SH) 0 12 6 ].
Definition splain : list (scmd SW) :=
  [ sins (P:=SW) 0 1 3; sins (P:=SW) 0 2 4; SKey (P:=SW) 1 (CGet (P:=SW) 1); sins (P:=SW) 0 5 5;
    SGetOrInsert (P:=SW) 0 6 (Some 2); sins (P:=SW) 0 7 6; SKey (P:=SW) 7 (CGet (P:=SW) 7); sins (P:=SW) 0 9 4 ].
Lemma smixed_api : Forall api smixed.
Proof. unfold smixed, splain, sins. repeat (apply Forall_cons; split; [by simpl; eauto 6|]). by apply Forall_nil. Qed.
Lemma splain_api : Forall api splain.
Proof. unfold smixed, splain, sins. repeat (apply Forall_cons; split; [by simpl; eauto 6|]). by apply Forall_nil. Qed.
