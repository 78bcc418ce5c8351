(* Model of /repo/src/options.rs, of the constructors with_options (sync.rs:121-153,
   unsync.rs:93-104, shard.rs:218-250) and of the choice of a shard (sync.rs:207-226).
   usize is 64 bits. *)
From Flocq Require Import IEEE754.BinarySingleNaN.
From Verif Require Export Shard.

(* ---- f64: IEEE 754 binary64, round to nearest even (the only mode Rust uses). NaN payloads
   are not modelled. ---- *)
Definition f64 := binary_float 53 1024.
Global Instance prec53 : FLX.Prec_gt_0 53 := eq_refl.
Global Instance prec53_1024 : Prec_lt_emax 53 1024 := eq_refl.
Definition f64_zero : f64 := B754_zero false.
Definition f64_one : f64 := @B754_finite 53 1024 false 4503599627370496 (-52) eq_refl.
(* options.rs:1-2 DEFAULT_HOT_ALLOCATION = 0.97 and DEFAULT_GHOST_ALLOCATION = 0.5: the doubles
   nearest to the decimal literals *)
Definition default_hot : f64 := @B754_finite 53 1024 false 8736983277098762 (-53) eq_refl.
Definition default_ghost : f64 := @B754_finite 53 1024 false 4503599627370496 (-53) eq_refl.
(* u64 as f64: rounds to nearest even *)
Definition as_f64 (n : N) : f64 := binary_normalize 53 1024 _ _ mode_NE (Z.of_N n) 0 false.
(* f64 as u64 (and as usize): truncates towards zero, saturates, sends NaN to 0 *)
Definition as_u64 (x : f64) : N :=
  match x with
  | B754_nan => 0
  | B754_infinity neg => if neg then 0 else two64 - 1
  | _ => N.min (Z.to_N (Btrunc x)) (two64 - 1)
  end%N.
(* a * b *)
Definition fmul (a b : f64) : f64 := Bmult mode_NE a b.
(* f64::clamp(0.0, 1.0) of the standard library *)
Definition clamp01 (x : f64) : f64 :=
  let x := if Bltb x f64_zero then f64_zero else x in
  if Bltb f64_one x then f64_one else x.

(* shard.rs:227 weight_target_hot and 228 capacity_non_resident *)
Definition hot_budget (weight_capacity : N) (hot_allocation : f64) : N :=
  as_u64 (fmul (as_f64 weight_capacity) hot_allocation).
Definition ghost_capacity (items_capacity : N) (ghost_allocation : f64) : N :=
  as_u64 (fmul (as_f64 items_capacity) ghost_allocation).

(* ---- options.rs ---- *)
(* options.rs:6-12 struct Options *)
Record options := Opts {
  o_shards : N; o_hot : f64; o_ghost : f64; o_items : N; o_weight : N }.
(* options.rs:33-40 struct OptionsBuilder *)
Record builder := Bld {
  b_shards : option N; b_hot : option f64; b_ghost : option f64;
  b_items : option N; b_weight : option N }.
(* options.rs:42-43 struct Error; 133, 136 are its two messages *)
Inductive opt_error := WeightNotSet | ItemsNotSet.

(* options.rs:53-56 new *)
Definition b_new : builder := Bld None None None None None.
(* options.rs:67-71 shards *)
Definition with_shards (b : builder) (n : N) : builder :=
  Bld (Some n) (b_hot b) (b_ghost b) (b_items b) (b_weight b).
(* options.rs:79-83 estimated_items_capacity *)
Definition with_items (b : builder) (n : N) : builder :=
  Bld (b_shards b) (b_hot b) (b_ghost b) (Some n) (b_weight b).
(* options.rs:86-90 weight_capacity *)
Definition with_weight (b : builder) (n : N) : builder :=
  Bld (b_shards b) (b_hot b) (b_ghost b) (b_items b) (Some n).
(* options.rs:98-106 hot_allocation *)
Definition with_hot (b : builder) (x : f64) : res builder :=
  let! _ := ensure (Beqb (clamp01 x) x) in
  Ok (Bld (b_shards b) (Some x) (b_ghost b) (b_items b) (b_weight b)).
(* options.rs:115-123 ghost_allocation *)
Definition with_ghost (b : builder) (x : f64) : res builder :=
  let! _ := ensure (Beqb (clamp01 x) x) in
  Ok (Bld (b_shards b) (b_hot b) (Some x) (b_items b) (b_weight b)).
(* options.rs:126-145 build; [cores] is the result of available_parallelism (148-159), assumed
   below 2^62 so that cores * 4 does not overflow *)
Definition build (cores : N) (b : builder) : options + opt_error :=
  let shards := default (cores * 4)%N (b_shards b) in
  let hot := default default_hot (b_hot b) in
  let ghost := default default_ghost (b_ghost b) in
  match b_weight b with
  | None => inr WeightNotSet
  | Some w =>
      match b_items b with
      | None => inr ItemsNotSet
      | Some i => inl (Opts shards hot ghost i w)
      end
  end.

(* a sequence of builder calls on OptionsBuilder::new() *)
Inductive setting := Shards (n : N) | Items (n : N) | Weight (n : N) | HotAlloc (x : f64) | GhostAlloc (x : f64).
Definition set_option (b : builder) (s : setting) : res builder :=
  match s with
  | Shards n => Ok (with_shards b n)
  | Items n => Ok (with_items b n)
  | Weight n => Ok (with_weight b n)
  | HotAlloc x => with_hot b x
  | GhostAlloc x => with_ghost b x
  end.
Fixpoint set_options (b : builder) (l : list setting) : res builder :=
  match l with [] => Ok b | s :: l => let! b := set_option b s in set_options b l end.

(* ---- sync.rs:121-153 with_options: how many shards, and how large ---- *)
(* u64::saturating_add *)
Definition sat_add (a b : N) : N := N.min (a + b) (two64 - 1).
(* usize::next_power_of_two; when the result does not fit, the debug build panics here, and the
   release build gets 0 and panics dividing by it at sync.rs:126 *)
Definition next_pow2 (n : N) : res N :=
  let p := if (n <=? 1)%N then 1%N else (2 ^ (N.log2 (n - 1) + 1))%N in
  if (p <? two64)%N then Ok p else Fail Panic.
(* sync.rs:125-128, 132-133: the share of one shard *)
Definition share (total n : N) : N := (sat_add total (n - 1) / n)%N.
(* sync.rs:129-134: halve the number of shards until each is expected to hold 32 items *)
Fixpoint fit_shards (fuel : nat) (items n : N) : res N :=
  match fuel with
  | O => Fail NoFuel
  | S fuel =>
      if (share items n <? 32)%N && (1 <? n)%N then fit_shards fuel items (n / 2)
      else Ok n
  end.
Definition num_shards (requested items : N) : res N :=
  let! n := next_pow2 requested in fit_shards 64 items n.

Section caches.
Context {P : Params}.
Notation shard := (shard P).

(* shard.rs:218-250 CacheShard::new *)
Definition shard_new (hot ghost : f64) (items weight : N) : shard :=
  sh_new (hot_budget weight hot) (ghost_capacity items ghost) weight.

(* unsync.rs:93-104 with_options; options.shards is not used *)
Definition unsync_new (o : options) : shard :=
  shard_new (o_hot o) (o_ghost o) (o_items o) (o_weight o).

(* sync.rs:30-42 struct Cache: the shards (without their locks) and shards_mask *)
Record scache := SCache { sc_shards : list shard; sc_mask : N }.
(* sync.rs:121-153 with_options *)
Definition sync_new (o : options) : res scache :=
  let! n := num_shards (o_shards o) (o_items o) in
  Ok (SCache (replicate (N.to_nat n)
        (shard_new (o_hot o) (o_ghost o) (share (o_items o) n) (share (o_weight o) n)))
        (n - 1)).

(* u64::rotate_right(32): usize::BITS / 2 = 32 *)
Definition rotate32 (h : N) : N := (h / two32 + (h mod two32) * two32)%N.
(* sync.rs:207-226 shard_for: the index of the shard of a key, if it exists *)
Definition shard_idx (mask : N) (k : K P) : nat := N.to_nat (N.land (rotate32 (hash P k)) mask).
Definition shard_for (c : scache) (k : K P) : option nat :=
  if decide (shard_idx (sc_mask c) k < length (sc_shards c)) then Some (shard_idx (sc_mask c) k) else None.

(* sync.rs:181-183 capacity, 186-188 shard_capacity, 191-193 num_shards. The sum is a u64 sum:
   it panics in the debug build when it overflows. *)
Fixpoint sum64 (l : list N) : res N :=
  match l with [] => Ok 0%N | n :: l => let! m := sum64 l in wadd n m end.
Definition sc_capacity (c : scache) : res N := sum64 (sh_capacity <$> sc_shards c).
Definition sc_shard_capacity (c : scache) : res N :=
  let! s := unwrap (sc_shards c !! 0) in Ok (sh_capacity s).
Definition sc_num_shards (c : scache) : N := N.of_nat (length (sc_shards c)).
End caches.
Arguments scache : clear implicits.
