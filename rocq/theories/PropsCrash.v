(* Property C45: panics in user code, caught by the caller. *)
From Verif Require Import Reach SeqProofs5 CrashWit.

(* ---- C45 ---- *)
(* The program with the points marked is the program. *)
Theorem C45_same_program : ∀ (P : Params) (s : shard P) (m : cmd P), (c_exec s m).2 = exec s m.
Proof. intros. apply er_exec. Qed.
Print Assumptions C45_same_program.
(* After any number of panics at harmless points, the cache is consistent: len() and weight() are
   exact, no key is cached twice, lookups agree with iteration, and every further call does what
   its specification says, or fails in the ways it always may. *)
Theorem C45_survives : ∀ (P : Params), Lawful P → ∀ budget ghosts cap (s : shard P), survived budget ghosts cap s →
  sh_len s = N.of_nat (length (sh_iter s)) ∧
  sh_weight s = (if (wsum (sh_iter s) <? two64)%N then Ok (wsum (sh_iter s)) else Fail WeightOvf) ∧
  ukeys (sh_iter s) ∧ sh_capacity s = cap ∧
  (∀ k, exec s (CPeek k) = Ok (s, plain (RVal (value_of k (sh_iter s))))) ∧
  (∀ m, match exec s m with
        | Ok (s', o) => does cap budget (sh_iter s) m o (sh_iter s')
        | Fail SlabFull => True
        | Fail WeightOvf => may_overflow cap budget (sh_iter s) m
        | Fail _ => False
        end).
Proof.
  intros P LW budget ghosts cap s Hs. destruct (survived_inv LW _ _ _ _ Hs) as (HI & Hc & Ht).
  split_and!; [by apply len_exact|by apply weight_exact|by apply inv_ukeys|done| |].
  - intros k. simpl. unfold u_peek. by rewrite (sh_peek_spec LW).
  - intros m. pose proof (exec_spec LW s m HI) as H. rewrite <-Hc, <-Ht. destruct (exec s m) as [[s' o]|[]]; simpl in H; try done. apply H.
Qed.
Print Assumptions C45_survives.
(* What the panicking call leaves cached. At the calm points: everything that was. At the other
   harmless points: the same, unless the call offered a pair (k, v); then some of the evictions
   it may perform have happened, and k may be gone or bound to the new value. *)
Theorem C45_contents : ∀ (P : Params), Lawful P → ∀ budget ghosts cap (s : shard P) m p s',
  survived budget ghosts cap s → panicked s m p s' → harmless p = true →
  if calm p then sh_iter s' ≡ₚ sh_iter s else
  match written m with
  | Some (k, v) => partway (sh_iter s) k v (sh_iter s')
  | None => sh_iter s' ≡ₚ sh_iter s
  end.
Proof. intros P LW budget ghosts cap s m p s'. by apply after_panic. Qed.
Print Assumptions C45_contents.
(* In particular no other key appears, or gets a value that the hooks did not give it; and
   pinned items of other keys stay. *)
Theorem C45_others : ∀ (P : Params), Lawful P → ∀ budget ghosts cap (s : shard P) m p s' k v,
  survived budget ghosts cap s → panicked s m p s' → harmless p = true → written m = Some (k, v) →
  (∀ k' v', (k', v') ∈ sh_iter s' → keqb P k k' = false → ∃ v0, (k', v0) ∈ sh_iter s ∧ turned k' v0 v') ∧
  (∀ k' v', (k', v') ∈ sh_iter s → keqb P k k' = false → pinned P k' v' = true → (k', v') ∈ sh_iter s').
Proof.
  intros P LW budget ghosts cap s m p s' k v Hs Hp Hh Hw. pose proof (after_panic LW _ _ _ _ _ _ _ Hs Hp Hh) as H.
  rewrite Hw in H. destruct (calm p).
  - split; intros k' v' Hin; [|intros _ _; by rewrite H]. intros _. exists v'. rewrite <-H. split; [done|]. apply turned_refl.
  - split; intros k' v' Hin Hk; [by eapply partway_other|]. by eapply partway_pinned.
Qed.
Print Assumptions C45_others.
(* The list of harmless points is complete: a panic at any other point can leave a cache whose
   len() or weight() is wrong, or on which the code itself panics later. *)
Theorem C45_harmful_refuted : ∀ p, harmless p = false →
  ∃ (P : Params), Lawful P ∧ ∃ budget ghosts cap (h : list (cmd P)) os s m s',
    history budget ghosts cap h os s ∧ panicked s m p s' ∧ broken s'.
Proof.
  intros p Hp. destruct (check_ok _ _ _ _ (wit_ok p Hp)) as (os & s & s' & H). exists W. split; [exact lawW|]. by eexists _, _, _, _, _, _, _, _.
Qed.
Print Assumptions C45_harmful_refuted.
(* But it never leads to undefined behaviour, wherever the panic was. *)
Theorem C45_no_undefined_behaviour : ∀ (P : Params) (s : shard P) m p s' (h : list (cmd P)),
  panicked s m p s' → run s' h ≠ Fail UB.
Proof. intros. apply safe_run. Qed.
Print Assumptions C45_no_undefined_behaviour.
(* Panics that meet the hypotheses, in caches with several items: one for every harmless point. *)
Definition C45_calls : list (list (cmd H) * cmd H * list point) :=
  let i k v := ins (P:=H) 0%N k v in
  [ (mixed, i 20 9, [PBegin; PHash; PNew; PEq; PPinned; PWeigh; PEnd]);
    ([i 1 6; i 2 6; i 3 2], i 5 4, [PColdEvict]);
    (mixed, i 11 4, [PReplacedEvict]);
    (mixed, i 11 60, [PRefused]);
    (mixed, CGetMut (P:=H) 11 (λ v, v + 1), [PLook]);
    (mixed, CRetain (P:=H) (λ _ _, false), [PRetain]);
    (mixed, CReserve (P:=H), [PReserveGrow]);
    ([i 1 6; i 2 6; i 3 2], CGetOrInsert (P:=H) 0 4 (Some 5), [POwned; PUpsertGrow; PLoader]) ]%N.
Example C45_example :
  forallb (λ '(h, m, ps), match run_of 12 4 16 h with
    | Some (s, _) => (2 <=? length (sh_iter s)) &&
        forallb (λ p, harmless p && existsb (λ x, bool_decide (x.1 = p)) (c_exec s m).1) ps
    | None => false
    end) C45_calls = true ∧
  (∀ p, harmless p = true → ∃ x, x ∈ C45_calls ∧ p ∈ x.2).
Proof.
  split; [by vm_compute|]. intros p Hp.
  assert (existsb (λ x, bool_decide (p ∈ x.2)) C45_calls = true) as (x & Hin & Hx)%existsb_exists by (destruct p; try discriminate; vm_compute; reflexivity).
  exists x. split; [by apply elem_of_list_In|]. by apply bool_decide_eq_true in Hx.
Qed.
