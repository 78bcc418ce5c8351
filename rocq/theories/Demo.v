(* Concrete instances of the parameters, used to show that the hypotheses of the property
   theorems are met by non-trivial executions. *)
From Verif Require Export PropSpec.
Local Open Scope N_scope.

(* keys, values and request states are numbers; four hash values, so that keys collide *)
Definition inst (w : N → N → N) (pin : N → N → bool) (be : N → N → N → N * N) : Params := {|
  K := N; V := N; RS := N;
  keqb := N.eqb;
  hash := λ k, k mod 4;
  weight := w;
  pinned := pin;
  before_evict := be;
  on_evict := λ rs _ _, rs + 1000;
  probe := λ T h, (List.filter (λ p, p.1 =? h) (tpairs T)).*2;
  titer := λ T, (tpairs T).*2;
  grows := λ _, true;
  ptr_ids := false;
|}.
Lemma inst_lawful w pin be : Lawful (inst w pin be).
Proof.
  split; simpl.
  - intros. apply N.eqb_refl.
  - intros k k' H. apply N.eqb_eq in H as ->. apply N.eqb_refl.
  - intros a b c Hab Hbc. apply N.eqb_eq in Hab as ->. done.
  - intros k k' H. by apply N.eqb_eq in H as ->.
  - intros T h t Hin. apply elem_of_list_fmap in Hin as (p & -> & Hp). apply elem_of_list_In, filter_In in Hp as [Hp _].
    apply elem_of_list_fmap. exists p. split; [done|]. by apply elem_of_list_In.
  - intros T h t Hin. apply elem_of_list_fmap. exists (h, t). split; [done|]. apply elem_of_list_In, filter_In. split; [by apply elem_of_list_In|].
    simpl. apply N.eqb_refl.
  - done.
Qed.

(* every item weighs 1, nothing is pinned, the default hooks *)
Definition U : Params := inst (λ _ _, 1) (λ _ _, false) (λ rs _ v, (rs, v)).
(* the value is the weight, nothing is pinned, the default hooks *)
Definition W : Params := inst (λ _ v, v) (λ _ _, false) (λ rs _ v, (rs, v)).
(* the value is the weight, keys from 100 on are pinned, before_evict counts its calls, zeroes
   the value 7 and halves every value above 50 *)
Definition H : Params := inst (λ _ v, v) (λ k _, 100 <=? k)
  (λ rs _ v, (rs + 1, if v =? 7 then 0 else if 50 <? v then v / 2 else v)).
Definition lawU : Lawful U := inst_lawful _ _ _.
Definition lawW : Lawful W := inst_lawful _ _ _.
Definition lawH : Lawful H := inst_lawful _ _ _.

(* the result of a history, for the examples *)
Definition run_of {P : Params} (budget ghosts cap : N) (h : list (cmd P)) : option (shard P * list (out P)) :=
  match run (sh_new budget ghosts cap) h with Ok x => Some x | Fail _ => None end.
Definition state_of {P : Params} (budget ghosts cap : N) (h : list (cmd P)) : shard P :=
  match run (sh_new budget ghosts cap) h with Ok x => x.1 | Fail _ => sh_new budget ghosts cap end.
Definition outs_of {P : Params} (budget ghosts cap : N) (h : list (cmd P)) : list (out P) :=
  match run (sh_new budget ghosts cap) h with Ok x => x.2 | Fail _ => [] end.
Definition ins {P : Params} : RS P → K P → V P → cmd P := λ rs k v, CInsert rs k v false.
(* a history mixing every kind of call, with evictions, ghosts, promotions and pinned items *)
Definition mixed : list (cmd H) :=
  [ ins (P:=H) 0 1 3; ins (P:=H) 0 2 4; CGet (P:=H) 1; ins (P:=H) 0 100 5; ins (P:=H) 0 3 7; ins (P:=H) 0 4 2;
    CGet (P:=H) 4; ins (P:=H) 0 5 6; ins (P:=H) 0 6 90; CGetMut (P:=H) 1 (λ v, v - 1); ins (P:=H) 0 2 1; CPeek (P:=H) 2;
    CRefOrGuard (P:=H) 0 8 (GInsert (P:=H) 3 false); CGetOrInsert (P:=H) 0 9 (Some 2); CRemove (P:=H) 5;
    CReplace (P:=H) 0 1 4 false false; CRetain (P:=H) (λ k _, negb (k =? 4)); ins (P:=H) 0 10 5; ins (P:=H) 0 11 5 ].
(* a history without pinned items; the last insert evicts *)
Definition plainh : list (cmd W) :=
  [ ins (P:=W) 0 1 3; ins (P:=W) 0 2 4; CGet (P:=W) 1; ins (P:=W) 0 5 5; CGetMut (P:=W) 2 (λ v, v - 1)%N;
    CGetOrInsert (P:=W) 0 6 (Some 2); ins (P:=W) 0 7 6; CGet (P:=W) 7; ins (P:=W) 0 9 4 ]%N.
