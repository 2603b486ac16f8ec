(** Shared vocabulary of the model: outcomes, fixed-width wrap-around, byte
    encodings and byte-addressed buffers.  Nothing here is specific to one Go
    function except where a citation says so. *)
From Coq Require Export List Bool Arith NArith ZArith.
From Coq Require Import FMapPositive.
Export ListNotations.
Open Scope N_scope.

(** How a Go call can end abnormally.
    - [Panic] : a Go panic (explicit [panic(..)] or a runtime check), tagged.
    - [Fault] : a memory access outside the buffer the pointer was derived from
      (undefined behaviour / SIGSEGV; the code uses [unsafe.Pointer] throughout).
    - [OutOfFuel] : not a Go outcome.  It marks a loop whose Go counterpart is
      unbounded and which the model's fuel did not let finish.
    - [Unlucky] : not a Go outcome either.  The one loop of the build with no bound at
      all (draw random sides until they are balanced) used up the model's rounds. *)
Inductive panic :=
| PLoaded            (* "Can't add items to a loaded index" / "Can't build a loaded index" *)
| PLength            (* "Vector length mismatch" *)
| PBuilt             (* "Index already built" *)
| PIndex             (* slice index / slice bounds out of range *)
| PDivZero           (* integer divide by zero *)
| PEmptyY            (* "y is empty" *)
| PWaitGroup         (* sync: negative WaitGroup counter *)
| PNil               (* nil pointer dereference *)
| PUnlock            (* unlock of a mutex that is not held (fatal error) *)
| PReadFile.         (* "Failed to read file" *)

Inductive err := Panic (p : panic) | Fault | OutOfFuel | Unlucky.

Inductive res (A : Type) := Ok (a : A) | Er (e : err).
Arguments Ok {A} a. Arguments Er {A} e.

Definition rbind {A B} (r : res A) (k : A -> res B) : res B :=
  match r with Ok a => k a | Er e => Er e end.
Notation "'let*' x ':=' r 'in' k" := (rbind r (fun x => k))
  (at level 200, x pattern, r at level 100, k at level 200, right associativity).

(** Unsigned arithmetic of a [w]-bit Go integer type. *)
Definition wrap (w x : N) : N := x mod 2 ^ w.

Definition lenN {A} (l : list A) : N := N.of_nat (length l).

(** The indices 0, 1, .., n-1. *)
Definition rangeN (n : N) : list N := map N.of_nat (seq 0 (N.to_nat n)).

(** Little-endian byte encodings (all supported targets of the library's
    [unsafe] overlays are little-endian). *)
Fixpoint le_enc (k : nat) (x : N) : list N :=
  match k with O => [] | S k' => (x mod 256) :: le_enc k' (x / 256) end.
Fixpoint le_dec (bs : list N) : N :=
  match bs with [] => 0 | b :: r => b + 256 * le_dec r end.

(** Byte-addressed memory.  Unwritten bytes are zero: the only sources of memory
    in the code are Go's [make([]byte, n)] (zeroed) and whole-file images. *)
Definition mem := PositiveMap.t N.
Definition mempty : mem := PositiveMap.empty N.
Definition mget (m : mem) (a : N) : N :=
  match PositiveMap.find (N.succ_pos a) m with Some b => b | None => 0 end.
Definition mset (m : mem) (a b : N) : mem := PositiveMap.add (N.succ_pos a) b m.

Fixpoint mread (m : mem) (off : N) (len : nat) : list N :=
  match len with O => [] | S l => mget m off :: mread m (off + 1) l end.
Fixpoint mwrite (m : mem) (off : N) (bs : list N) : mem :=
  match bs with [] => m | b :: r => mwrite (mset m off b) (off + 1) r end.

(** A contiguous allocation of [bsize] bytes. *)
Record buf := mkBuf { bsize : N; bdata : mem }.

Definition buf_zero (n : N) : buf := mkBuf n mempty.
Definition buf_of_bytes (bs : list N) : buf := mkBuf (lenN bs) (mwrite mempty 0 bs).

(** Reading / writing [len] bytes at byte offset [off] through a raw pointer to
    the start of the buffer.  Anything outside the buffer is a [Fault]. *)
Definition bread (b : buf) (off len : N) : res (list N) :=
  if off + len <=? bsize b then Ok (mread (bdata b) off (N.to_nat len)) else Er Fault.
Definition bwrite (b : buf) (off : N) (bs : list N) : res buf :=
  if off + lenN bs <=? bsize b then Ok (mkBuf (bsize b) (mwrite (bdata b) off bs)) else Er Fault.
