(** Random generators: /repo/random/kiss32random.go and /repo/random/kiss64random.go. *)
From Verif Require Import Base.
Open Scope N_scope.

(** ** Kiss32Random[TIX]; [w] is the width of TIX in bits (32 or 64). *)
Record kiss := mkKiss { kx : N; ky : N; kz : N; kc : N; kseed : N }.

(** NewKiss32Random: kiss32random.go:22-34. *)
Definition kiss_new (seed : N) : kiss :=
  let s := if seed =? 0 then 123456789 else seed in
  mkKiss s 362436000 521288629 7654321 s.

(** Next: kiss32random.go:37-49.  [t] is a uint64 whatever TIX is. *)
Definition kiss_next (w : N) (r : kiss) : N * kiss :=
  let x := wrap w (69069 * kx r + 12345) in
  let y1 := N.lxor (ky r) (wrap w (N.shiftl (ky r) 13)) in
  let y2 := N.lxor y1 (N.shiftr y1 17) in
  let y3 := N.lxor y2 (wrap w (N.shiftl y2 5)) in
  let t := wrap 64 (698769069 + kz r + kc r) in
  let c := wrap w (N.shiftr t 32) in
  let z := wrap w t in
  (wrap w (x + y3 + z), mkKiss x y3 z c (kseed r)).

(** Side: SideLeft = 0, SideRight = 1 (/repo/interfaces/distance.go:7-12).
    [true] stands for SideRight. *)
(** NextSide from one drawn number: kiss32random.go:51-60 (odd means left). *)
Definition side_of_draw (n : N) : bool := negb (N.odd n).

(** NextIndex from one drawn number: kiss32random.go:62-64; Go panics on % 0. *)
Definition index_of_draw (n draw : N) : res N :=
  if n =? 0 then Er (Panic PDivZero) else Ok (draw mod n).

(** SetSeed: kiss32random.go:66-69 (y, z, c keep their values). *)
Definition kiss_set_seed (r : kiss) (s : N) : kiss := mkKiss s (ky r) (kz r) (kc r) s.
(** GetSeed: kiss32random.go:71-73. *)
Definition kiss_get_seed (r : kiss) : N := kseed r.
(** CloneAndReset: kiss32random.go:75-77. *)
Definition kiss_clone (r : kiss) : kiss := kiss_new (kseed r).

(** The first [n] numbers a generator produces, and its state afterwards. *)
Fixpoint kiss_draws (w : N) (n : nat) (r : kiss) : list N * kiss :=
  match n with
  | O => ([], r)
  | S n' => let (d, r1) := kiss_next w r in
            let (ds, r2) := kiss_draws w n' r1 in (d :: ds, r2)
  end.

(** ** Kiss64Random *)
(** NewKiss64Random: kiss64random.go:20-32. *)
Definition kiss64_new (seed : N) : kiss :=
  let s := if seed =? 0 then 1234567890987654321 else seed in
  mkKiss s 362436362436362436 1066149217761810 123456123456123456 s.

(** Next: kiss64random.go:34-50. *)
Definition kiss64_next (r : kiss) : N * kiss :=
  let z := wrap 64 (6906969069 * kz r + 1234567) in
  let y1 := N.lxor (ky r) (wrap 64 (N.shiftl (ky r) 13)) in
  let y2 := N.lxor y1 (N.shiftr y1 17) in
  let y3 := N.lxor y2 (wrap 64 (N.shiftl y2 43)) in
  let t := wrap 64 (wrap 64 (N.shiftl (kx r) 58) + kc r) in
  let c := N.shiftr (kx r) 6 in
  let x := wrap 64 (kx r + t) in
  let c' := if x <? t then wrap 64 (c + 1) else c in
  (wrap 64 (x + y3 + z), mkKiss x y3 z c' (kseed r)).

(** SetSeed, CloneAndReset: kiss64random.go:67-78. *)
Definition kiss64_set_seed (r : kiss) (s : N) : kiss := mkKiss s (ky r) (kz r) (kc r) s.
Definition kiss64_clone (r : kiss) : kiss := kiss64_new (kseed r).

Fixpoint kiss64_draws (n : nat) (r : kiss) : list N * kiss :=
  match n with
  | O => ([], r)
  | S n' => let (d, r1) := kiss64_next r in
            let (ds, r2) := kiss64_draws n' r1 in (d :: ds, r2)
  end.
