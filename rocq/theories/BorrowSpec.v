(* The vocabulary of the theorems about borrowed keys. *)
From Verif Require Export PropSpec Borrow.

(* What the documentation of Equivalent demands: a form that is equivalent to a key is so to
   exactly the keys equal to it, and has its hash. *)
Record Lawful_form {P} (F : Form P) : Prop := {
  form_hash : ∀ q k, feqb F q k = true → fhash F q = hash P k;
  form_eq : ∀ q k k', feqb F q k = true → feqb F q k' = keqb P k k';
}.
(* ... and the key made of a form is equivalent to it *)
Definition owns {P} (F : Form P) : Prop := ∀ q, feqb F q (own F q) = true.

Section borrowspec.
Context {P : Params} (F : Form P).
Notation K := (K P). Notation V := (V P). Notation contents := (contents P). Notation out := (out P).
Implicit Types (q : form F) (k : K) (c : contents).

(* the call with the key k in place of the form *)
Definition with_key (m : bcmd F) k : cmd P :=
  match m with
  | BContains _ => CContains k | BGet _ => CGet k | BPeek _ => CPeek k
  | BGetMut _ f => CGetMut k f | BPeekMut _ f => CPeekMut k f | BRemove _ => CRemove k
  | BGetOrInsert rs _ w => CGetOrInsert rs k w
  | BGetMutOrInsert rs _ w f => CGetMutOrInsert rs k w f
  | BRefOrGuard rs _ g => CRefOrGuard rs k g
  | BMutOrGuard rs _ f g => CMutOrGuard rs k f g
  end.
Definition the_form (m : bcmd F) : form F :=
  match m with
  | BContains q | BGet q | BPeek q | BGetMut q _ | BPeekMut q _ | BRemove q | BGetOrInsert _ q _
  | BGetMutOrInsert _ q _ _ | BRefOrGuard _ q _ | BMutOrGuard _ q _ _ => q
  end.
Definition loading (m : bcmd F) : bool :=
  match m with BGetOrInsert _ _ _ | BGetMutOrInsert _ _ _ _ | BRefOrGuard _ _ _ | BMutOrGuard _ _ _ _ => true | _ => false end.
Definition s_with_key (m : bscmd F) k : scmd P :=
  match m with
  | BSContains _ => SKey k (CContains k) | BSGet _ => SKey k (CGet k) | BSPeek _ => SKey k (CPeek k)
  | BSRemove _ => SKey k (CRemove k)
  | BSValueOrGuard rs _ g => SValueOrGuard rs k g
  | BSGetOrInsert rs _ w => SGetOrInsert rs k w
  end.
Definition s_the_form (m : bscmd F) : form F :=
  match m with BSContains q | BSGet q | BSPeek q | BSRemove q | BSValueOrGuard _ q _ | BSGetOrInsert _ q _ => q end.
Definition s_loading (m : bscmd F) : bool :=
  match m with BSValueOrGuard _ _ _ | BSGetOrInsert _ _ _ => true | _ => false end.

(* the cached pair whose key is equivalent to the form *)
Definition find_form q c : option (K * V) := find (λ p, feqb F q p.1) c.
(* ... with f applied to its value *)
Definition changed_form q (f : V → V) c : contents := map (λ p, if feqb F q p.1 then (p.1, f p.2) else p) c.
Definition b_overflows c (m : bcmd F) : Prop :=
  match m with BGetMut q f | BPeekMut q f => (two64 ≤ wsum (changed_form q f c))%N | _ => False end.
(* What a lookup by a borrowed key does, for a form that need not be equivalent to any key. *)
Definition b_does c (m : bcmd F) (o : out) c' : Prop :=
  match m with
  | BContains q => c' ≡ₚ c ∧ o = plain (RBool (match find_form q c with Some _ => true | None => false end))
  | BGet q | BPeek q => c' ≡ₚ c ∧ o = plain (RVal (snd <$> find_form q c))
  | BGetMut q f | BPeekMut q f =>
      c' ≡ₚ changed_form q f c ∧ o = plain (RVal (snd <$> find_form q c))
  | BRemove q => c' ≡ₚ List.filter (λ p, negb (feqb F q p.1)) c ∧ o = plain (RPair (find_form q c))
  | _ => False
  end.

(* The states a cache can reach by calls with keys and with borrowed keys, where those that load are
   made with forms that own a key equivalent to them. *)
Inductive b_reached (budget ghosts cap : N) : shard P → Prop :=
  | br_new : b_reached budget ghosts cap (sh_new budget ghosts cap)
  | br_key s m s' o : b_reached budget ghosts cap s → exec s m = Ok (s', o) → b_reached budget ghosts cap s'
  | br_form s m s' o : b_reached budget ghosts cap s → loading m = false ∨ owns F → b_exec F s m = Ok (s', o) → b_reached budget ghosts cap s'.
End borrowspec.
