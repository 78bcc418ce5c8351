(* Common vocabulary of the model: outcomes, checked arithmetic, weakest preconditions. *)
From Coq Require Export Lia.
From stdpp Require Export prelude list.

Global Set Asymmetric Patterns.

(* How an execution of the modelled code can stop without returning.
   - [Panic]: unwrap/expect on None, unreachable!(), failing assert, index out of bounds; in the
     debug build also a failing debug_assert and arithmetic underflow;
   - [UB]: core::hint::unreachable_unchecked / unwrap_unchecked / assume_init on a bad value;
   - [SlabFull]: linked_slab.rs:75 expect("Capacity overflow"), documented at linked_slab.rs:61-62;
   - [WeightOvf]: a sum of weights does not fit u64, documented at lib.rs:116-117;
   - [NoFuel]: artefact of the model, a loop ran longer than its proven bound. *)
Inductive fail := Panic | UB | SlabFull | WeightOvf | NoFuel.

Inductive res (A : Type) := Ok (a : A) | Fail (f : fail).
Arguments Ok {A} a.
Arguments Fail {A} f.

Definition rbind {A B} (m : res A) (k : A → res B) : res B :=
  match m with Ok a => k a | Fail f => Fail f end.

Notation "'let!' x := m 'in' k" := (rbind m (λ x, k))
  (at level 200, x pattern, m at level 100, k at level 200, right associativity).

(* Option::unwrap / unwrap_or_else(|| unreachable!()) *)
Definition unwrap {A} (o : option A) : res A :=
  match o with Some a => Ok a | None => Fail Panic end.

(* assert!(b) *)
Definition ensure (b : bool) : res () := if b then Ok () else Fail Panic.

(* The build: with or without debug assertions and overflow checks. Where nothing else is said,
   the debug build is meant. *)
Class Build := is_debug : bool.
Global Instance debug : Build := true.
Definition release : Build := false.

(* debug_assert!(b) *)
Definition assert {B : Build} (b : bool) : res () :=
  if b then Ok () else if is_debug then Fail Panic else Ok ().

(* u64::MAX + 1 *)
Definition two64 : N := 18446744073709551616%N.
Definition two32 : N := 4294967296%N.

(* u64 addition / subtraction of weights; the release build wraps around *)
Definition wadd {B : Build} (a b : N) : res N :=
  if (a + b <? two64)%N then Ok (a + b)%N
  else if is_debug then Fail WeightOvf else Ok (a + b - two64)%N.
Definition wsub {B : Build} (a b : N) : res N :=
  if (b <=? a)%N then Ok (a - b)%N
  else if is_debug then Fail Panic else Ok (a + two64 - b)%N.

(* [wp E m Q]: m either returns a value satisfying Q or fails in a way allowed by E. *)
Definition wp {A} (E : fail → Prop) (m : res A) (Q : A → Prop) : Prop :=
  match m with Ok a => Q a | Fail f => E f end.

Section wp.
  Context {A B : Type} (E : fail → Prop).
  Lemma wp_bind (m : res A) (k : A → res B) Q :
    wp E m (λ a, wp E (k a) Q) → wp E (rbind m k) Q.
  Proof. destruct m; simpl; auto. Qed.
  Lemma wp_mono (m : res A) (P Q : A → Prop) :
    wp E m P → (∀ a, P a → Q a) → wp E m Q.
  Proof. destruct m; simpl; auto. Qed.
  Lemma wp_ok (a : A) (Q : A → Prop) : Q a → wp E (Ok a) Q.
  Proof. auto. Qed.
  Lemma wp_inv_ok (m : res A) Q a : wp E m Q → m = Ok a → Q a.
  Proof. intros H ->; exact H. Qed.
  Lemma wp_inv_fail (m : res A) Q f : wp E m Q → m = Fail f → E f.
  Proof. intros H ->; exact H. Qed.
  Lemma wp_weaken_E (E' : fail → Prop) (m : res A) Q :
    wp E m Q → (∀ f, E f → E' f) → wp E' m Q.
  Proof. destruct m; simpl; auto. Qed.
End wp.

Lemma wp_unwrap {A} E (o : option A) (a : A) (Q : A → Prop) :
  o = Some a → Q a → wp E (unwrap o) Q.
Proof. intros ->; auto. Qed.
Lemma wp_assert E (b : bool) (Q : () → Prop) :
  b = true → Q () → wp E (assert b) Q.
Proof. intros ->; auto. Qed.
Lemma wp_wadd (E : fail → Prop) a b (Q : N → Prop) :
  ((two64 <= a + b)%N → E WeightOvf) → Q (a + b)%N → wp E (wadd a b) Q.
Proof. unfold wadd; intros HE HQ; destruct (N.ltb_spec (a + b) two64); simpl; auto. Qed.
Lemma wp_wsub (E : fail → Prop) a b (Q : N → Prop) :
  (b <= a)%N → Q (a - b)%N → wp E (wsub a b) Q.
Proof. unfold wsub; intros Hle HQ; destruct (N.leb_spec b a); simpl; [auto|lia]. Qed.
