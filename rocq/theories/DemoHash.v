(* The instance of DemoScan.v with other hashers, for the examples of C61. *)
From Verif Require Export DemoScan Rehash.
Local Open Scope N_scope.

(* another hasher, a table that is walked backwards and is never enlarged *)
Definition backwards (T : table) : list nat := reverse (tpairs T).*2.
Definition frugal (T : table) : bool := false.
Definition tripled (k : N) : N := (3 * k + 1) mod 97.
(* all keys collide *)
Definition zero (k : N) : N := 0.
Lemma law_rehashed (h : N → N) : Lawful (rehashed D h (probe D) backwards frugal).
Proof.
  split; simpl.
  - intros. apply N.eqb_refl.
  - intros k k' H. apply N.eqb_eq in H as ->. apply N.eqb_refl.
  - intros a b c Hab Hbc. apply N.eqb_eq in Hab as ->. done.
  - intros k k' H. by apply N.eqb_eq in H as ->.
  - exact (probe_sound _ lawD).
  - exact (probe_complete _ lawD).
  - intros T. unfold backwards. by rewrite reverse_Permutation.
Qed.
(* decides whether some of the keys collide *)
Lemma few_keys (h : N → N) (ks : list N) :
  forallb (λ k, forallb (λ k', (k =? k') || negb (h k =? h k')) ks) ks = true → no_collisions (rehashed D h (probe D) backwards frugal) ks.
Proof.
  intros H k k' Hk Hk' He. simpl in *. rewrite forallb_forall in H. apply elem_of_list_In in Hk, Hk'.
  specialize (H k Hk). rewrite forallb_forall in H. specialize (H k' Hk'). rewrite He, N.eqb_refl, orb_false_r in H. exact H.
Qed.
Notation D3 := (rehashed D tripled (probe D) backwards frugal).
Notation D0 := (rehashed D zero (probe D) backwards frugal).
Definition policy_calls3 : list (cmd D3) := re_cmd <$> policy_calls.
(* the item of key 3 is evicted, then new keys enter *)
Definition crossing : list (cmd D) := [put 1 4; put 2 4; put 3 4; put 4 4; put 5 4; put 6 4].
Definition crossing0 : list (cmd D0) := re_cmd <$> crossing.
