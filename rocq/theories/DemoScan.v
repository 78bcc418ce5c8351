(* An instance in which different keys have different hashes, for the examples on scans. *)
From Verif Require Export Demo Scan.
Local Open Scope N_scope.

(* the value is the weight, nothing is pinned, the default hooks *)
Definition D : Params := {|
  K := N; V := N; RS := N;
  keqb := N.eqb;
  hash := λ k, k;
  weight := λ _ v, v;
  pinned := λ _ _, false;
  before_evict := λ rs _ v, (rs, v);
  on_evict := λ rs _ _, rs + 1000;
  probe := λ T h, (List.filter (λ p, p.1 =? h) (tpairs T)).*2;
  titer := λ T, (tpairs T).*2;
  grows := λ _, true;
  ptr_ids := true;
|}.
Lemma lawD : Lawful D.
Proof.
  split; simpl.
  - intros. apply N.eqb_refl.
  - intros k k' H. apply N.eqb_eq in H as ->. apply N.eqb_refl.
  - intros a b c Hab Hbc. apply N.eqb_eq in Hab as ->. done.
  - intros k k' H. by apply N.eqb_eq in H as ->.
  - intros T h t Hin. apply elem_of_list_fmap in Hin as (p & -> & Hp). apply elem_of_list_In, filter_In in Hp as [Hp _].
    apply elem_of_list_fmap. exists p. split; [done|]. by apply elem_of_list_In.
  - intros T h t Hin. apply elem_of_list_fmap. exists (h, t). split; [done|]. apply elem_of_list_In, filter_In. split; [by apply elem_of_list_In|].
    simpl. apply N.eqb_refl.
  - done.
Qed.
Definition put (k v : N) : cmd D := CInsert (P:=D) 0 k v false.
Definition load (k v : N) : cmd D := CGetOrInsert (P:=D) 0 k (Some v).
Definition warm_puts : list (cmd D) := [put 1 3; put 2 3; put 3 2].
Definition scan_puts : list (cmd D) :=
  [put 11 4; put 12 3; CGet (P:=D) 1; put 13 4; CPeek (P:=D) 13; put 14 2; load 2 9; CRemove (P:=D) 14; put 15 4; put 16 9; CGet (P:=D) 17].
Definition warm_loads : list (cmd D) := [load 1 4; load 2 4; load 3 3].
Definition scan_loads : list (cmd D) := [load 11 1; load 12 8; load 1 3; load 13 8; load 14 1; load 15 8].
Definition policy_calls : list (cmd D) :=
  [put 1 4; put 2 4; put 3 2; put 4 2; CGet (P:=D) 3; put 5 2; put 6 3; put 4 3; load 7 1; CGet (P:=D) 7;
   CReplace (P:=D) 0 5 1 false false; put 8 5; CRetain (P:=D) (λ k _, negb (k =? 7)); put 9 2].
(* the items reported as evicted, in order *)
Definition evictions (os : list (out D)) : list (N * N) :=
  flat_map (λ o, flat_map (λ e, match e with LHook (EvEvict k v) => [(k, v)] | _ => [] end) (o_log o)) os.
