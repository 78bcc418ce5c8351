(* Specification for C26: what the calls of the sync cache add to hits() and misses(), when it is
   used by one thread at a time. *)
From Verif Require Export SyncSpec.

(* hits and misses of one call, told from its result: a get counts one of them;
   get_value_or_guard and get_or_insert_with count one hit, or, when they start a load, two misses
   (they look the key up twice) *)
Definition looked {P : Params} (m : scmd P) (o : out P) : N * N :=
  match m with
  | SKey _ (CGet _) => match o_ret o with RVal (Some _) => (1, 0)%N | _ => (0, 1)%N end
  | SValueOrGuard _ _ _ => match o_ret o with RVal _ => (1, 0)%N | _ => (0, 2)%N end
  | SGetOrInsert _ _ _ => if o_called o then (0, 2)%N else (1, 0)%N
  | _ => (0, 0)%N
  end.
Definition hits_of {P : Params} (h : list (scmd P)) (os : list (out P)) : N :=
  foldr N.add 0%N (zip_with (λ m o, (looked m o).1) h os).
Definition misses_of {P : Params} (h : list (scmd P)) (os : list (out P)) : N :=
  foldr N.add 0%N (zip_with (λ m o, (looked m o).2) h os).
