(* Property C55: borrowed keys. *)
From Verif Require Import Reach SeqProofs5 Demo BorrowSpec BorrowProofs.

(* ---- C55 ---- *)
(* In every state, a call with a form that is equivalent to the key k is the call with k; when it
   loads, with the key made of the form. *)
Theorem C55_same_call : ∀ (P : Params) (B : Build) (F : Form P), Lawful_form F → ∀ (s : shard P) (m : bcmd F) k,
  feqb F (the_form F m) k = true → loading F m = false ∨ own F (the_form F m) = k →
  b_exec (B:=B) F s m = exec (B:=B) s (with_key F m k).
Proof. intros. by apply b_exec_same. Qed.
Print Assumptions C55_same_call.
Theorem C55_same_call_sync : ∀ (P : Params) (B : Build) (F : Form P), Lawful_form F → ∀ (c : scache P) (m : bscmd F) k,
  feqb F (s_the_form F m) k = true → s_loading F m = false ∨ own F (s_the_form F m) = k →
  b_sc_exec (B:=B) F c m = sc_exec (B:=B) c (s_with_key F m k).
Proof. intros. by apply b_sc_exec_same. Qed.
Print Assumptions C55_same_call_sync.
(* A lookup finds, changes or removes the pair whose key is equivalent to the form, if there is one,
   and nothing else; also for a form that is equivalent to no key at all. It fails only if the
   weights after a change in place do not fit 64 bits. *)
Theorem C55_lookups : ∀ (P : Params), Lawful P → ∀ (F : Form P), Lawful_form F →
  ∀ budget ghosts cap (s : shard P) (m : bcmd F), b_reached F budget ghosts cap s → loading F m = false →
  match b_exec F s m with
  | Ok (s', o) => b_does F (sh_iter s) m o (sh_iter s')
  | Fail WeightOvf => b_overflows F (sh_iter s) m
  | Fail _ => False
  end.
Proof.
  intros P LW F LF budget ghosts cap s m Hs Hl. destruct (b_reached_inv LW F LF _ _ _ _ Hs) as [HI _].
  pose proof (b_lookup LW F LF s m HI Hl) as H. destruct (b_exec F s m) as [[s' o]|f]; simpl in H; [done|]. destruct H as [-> H]. done.
Qed.
Print Assumptions C55_lookups.
(* The cache stays consistent under calls of both kinds, and calls with keys go on meeting their
   specification. *)
Theorem C55_consistent : ∀ (P : Params), Lawful P → ∀ (F : Form P), Lawful_form F →
  ∀ budget ghosts cap (s : shard P), b_reached F budget ghosts cap s →
  sh_len s = N.of_nat (length (sh_iter s)) ∧
  sh_weight s = (if (wsum (sh_iter s) <? two64)%N then Ok (wsum (sh_iter s)) else Fail WeightOvf) ∧
  ukeys (sh_iter s) ∧ sh_capacity s = cap ∧
  (∀ q p p', p ∈ sh_iter s → p' ∈ sh_iter s → feqb F q p.1 = true → feqb F q p'.1 = true → p = p') ∧
  (∀ m, match exec s m with
        | Ok (s', o) => does cap budget (sh_iter s) m o (sh_iter s')
        | Fail SlabFull => True
        | Fail WeightOvf => may_overflow cap budget (sh_iter s) m
        | Fail _ => False
        end).
Proof.
  intros P LW F LF budget ghosts cap s Hs. destruct (b_reached_inv LW F LF _ _ _ _ Hs) as (HI & Hc & Ht).
  pose proof (inv_ukeys LW s HI) as Hu. split_and!; [by apply len_exact|by apply weight_exact|done|done| |].
  - intros q p p' Hp Hp' Hq Hq'. pose proof (form_eq _ LF q p.1 p'.1 Hq) as E. rewrite Hq' in E.
    pose proof (find_key_in LW p.1 _ p Hu Hp (keqb_refl _ LW _)) as E1. rewrite (find_key_in LW p.1 _ p' Hu Hp') in E1 by done. congruence.
  - intros m. pose proof (exec_spec LW s m HI) as H. rewrite <-Hc, <-Ht. destruct (exec s m) as [[s' o]|[]]; simpl in H; try done. apply H.
Qed.
Print Assumptions C55_consistent.

(* Forms that meet the hypotheses, for keys that are numbers: digits, least significant first, and
   none at all, which is equivalent to no key. The cache is built by calls of both kinds. *)
Definition C55_value (q : nat * nat) : N := (N.of_nat q.1 + 10 * N.of_nat q.2)%N.
Definition C55_form : Form H := Build_Form H (option (nat * nat))
  (λ q, match q with Some d => hash H (C55_value d) | None => 3%N end)
  (λ q (k : N), match q with Some d => (C55_value d =? k)%N | None => false end)
  (λ q, match q with Some d => C55_value d | None => 0%N end).
Definition C55_digits : Form H := Build_Form H (nat * nat)
  (λ d, hash H (C55_value d)) (λ d (k : N), (C55_value d =? k)%N) C55_value.
Lemma C55_lawful : Lawful_form C55_form ∧ Lawful_form C55_digits ∧ owns C55_digits.
Proof.
  split_and!.
  - split; [intros [d|] k|intros [d|] k k']; simpl; try done; by intros ->%N.eqb_eq.
  - split; [intros d k|intros d k k']; simpl; by intros ->%N.eqb_eq.
  - intros d. simpl. apply N.eqb_refl.
Qed.
Definition C55_calls : list (bcmd C55_digits) :=
  [BGet C55_digits (1, 0); BGetMut C55_digits (1, 0) (λ v, v - 1)%N; BGetOrInsert C55_digits 0%N (3, 2) (Some 3%N); BRemove C55_digits (9, 0);
   BContains C55_digits (9, 0); BPeek C55_digits (3, 2)].
Fixpoint C55_run (s : shard H) (l : list (bcmd C55_digits)) : option (shard H * list (ret H)) :=
  match l with
  | [] => Some (s, [])
  | m :: l => match b_exec C55_digits s m with Ok (s, o) => (λ '(s, os), (s, o_ret o :: os)) <$> C55_run s l | Fail _ => None end
  end.
Lemma C55_keys F budget ghosts cap h : ∀ (s s' : shard H) os, b_reached F budget ghosts cap s → run s h = Ok (s', os) → b_reached F budget ghosts cap s'.
Proof.
  induction h as [|m h IH]; intros s s' os Hs E; simpl in E; [by injection E as <- <-|].
  destruct (exec s m) as [[s1 o]|] eqn:E1; simpl in E; [|done]. destruct (run s1 h) as [[s2 os2]|] eqn:E2; simpl in E; [|done].
  injection E as <- <-. eapply IH; [|done]. by eapply br_key.
Qed.
Lemma C55_forms l : ∀ (s s' : shard H) os, b_reached C55_digits 12 4 16 s → C55_run s l = Some (s', os) → b_reached C55_digits 12 4 16 s'.
Proof.
  induction l as [|m l IH]; intros s s' os Hs E; simpl in E; [by injection E as <- <-|].
  destruct (b_exec C55_digits s m) as [[s1 o]|] eqn:E1; [|done]. destruct (C55_run s1 l) as [[s2 os2]|] eqn:E2; simpl in E; [|done].
  injection E as <- <-. eapply IH; [|done]. eapply br_form; [done| |done]. right. apply C55_lawful.
Qed.
Definition C55_state : shard H := from_option fst (state_of 12 4 16 mixed) (C55_run (state_of 12 4 16 mixed) C55_calls).
Definition C55_rets : option (list (ret H)) := snd <$> C55_run (state_of 12 4 16 mixed) C55_calls.
Example C55_example : b_reached C55_digits 12 4 16 C55_state ∧
  C55_rets = Some [RVal (P:=H) (Some 4); RVal (P:=H) (Some 4); RVal (P:=H) (Some 3); RPair (P:=H) (Some (9, 2)); RBool (P:=H) false; RVal (P:=H) (Some 3)]%N ∧
  sh_iter C55_state = [(1, 3); (3, 0); (100, 5); (23, 3)]%N ∧
  (∃ s', b_exec C55_form C55_state (BRemove C55_form None) = Ok (s', plain (RPair (P:=H) None)) ∧ sh_iter s' = sh_iter C55_state).
Proof.
  split_and!.
  - unfold C55_state. destruct (C55_run (state_of 12 4 16 mixed) C55_calls) as [[s os]|] eqn:E; [simpl|vm_compute in E; discriminate].
    eapply C55_forms; [|exact E]. unfold state_of. destruct (run _ mixed) as [[s' os']|] eqn:E2; [|apply br_new]. simpl.
    eapply C55_keys; [apply br_new|exact E2].
  - vm_compute. reflexivity.
  - vm_compute. reflexivity.
  - eexists. split; vm_compute; reflexivity.
Qed.
