(** Outcomes, errors, bytes. *)
From Coq Require Export ZArith List Bool Lia.
From Coq Require Export ZifyBool ZifyClasses.
Export ListNotations.
Global Open Scope Z_scope.
Global Open Scope list_scope.

Ltac Zify.zify_post_hook ::= Z.div_mod_to_equations.

(** Length of a Go slice or string. *)
Definition zlen {A} (l : list A) : Z := Z.of_nat (length l).

(** A byte string is a [list Z] all of whose elements are bytes. *)
Definition is_byte (z : Z) : Prop := 0 <= z < 256.
Definition bytes_ok (l : list Z) : Prop := Forall is_byte l.

(** Errors.  The text of an error is not modelled; what is kept is which
    sentinel (or writer) error can be found by [errors.Is].
    [EMsg]: fmt.Errorf / errors.New without %w.
    [EWrap e]: fmt.Errorf with %w around [e].
    [EWriter n]: error number [n] of the underlying io.Writer. *)
Inductive err : Type :=
| EUnexpectedEOF                (* io.ErrUnexpectedEOF *)
| EShortBuffer                  (* io.ErrShortBuffer *)
| EEOF                          (* io.EOF, only from a foreign io.ByteReader *)
| EVarint                       (* ErrVarIntBufferSize, /repo/decoder.go:157 *)
| EInvalidDecoder               (* InvalidDecoderError, /repo/error.go:21 *)
| EMsg
| EWriter (n : Z)
| EWrap (e : err).

(** errors.Is(e, target) for a comparable sentinel target: unwraps. *)
Fixpoint err_is (e target : err) : Prop :=
  e = target \/ match e with EWrap e' => err_is e' target | _ => False end.

(** What a Go call can do.
    [Panic]: run-time panic.
    [Deep]: reached the point where the unrolling of a recursive Go type was
    cut (see [TDeep] in Types.v).
    [Stuck]: the model was given a value that does not fit its type, or left
    the modelled fragment. *)
Inductive outcome (A : Type) : Type :=
| Ok (a : A)
| Err (e : err)
| Panic
| Deep
| Stuck.
Arguments Ok {A} a.
Arguments Err {A} e.
Arguments Panic {A}.
Arguments Deep {A}.
Arguments Stuck {A}.

Definition omap {A B} (f : A -> B) (o : outcome A) : outcome B :=
  match o with
  | Ok a => Ok (f a)
  | Err e => Err e
  | Panic => Panic
  | Deep => Deep
  | Stuck => Stuck
  end.

(** State monads; the state survives an error. *)
Definition SM (S A : Type) : Type := S -> outcome A * S.

Definition ret {S A} (a : A) : SM S A := fun s => (Ok a, s).
Definition fail {S A} (e : err) : SM S A := fun s => (Err e, s).
Definition panic {S A} : SM S A := fun s => (Panic, s).
Definition stuck {S A} : SM S A := fun s => (Stuck, s).
Definition deep {S A} : SM S A := fun s => (Deep, s).

Definition bind {S A B} (m : SM S A) (k : A -> SM S B) : SM S B :=
  fun s => match m s with
           | (Ok a, s') => k a s'
           | (Err e, s') => (Err e, s')
           | (Panic, s') => (Panic, s')
           | (Deep, s') => (Deep, s')
           | (Stuck, s') => (Stuck, s')
           end.

Definition fmap {S A B} (f : A -> B) (m : SM S A) : SM S B :=
  bind m (fun a => ret (f a)).

(** Replace an error ([fmt.Errorf] around an error return). *)
Definition map_err {S A} (f : err -> err) (m : SM S A) : SM S A :=
  fun s => match m s with
           | (Err e, s') => (Err (f e), s')
           | r => r
           end.

Declare Scope sm_scope.
Delimit Scope sm_scope with sm.
Notation "x <- m ;; k" := (bind m (fun x => k))
  (at level 61, m at next level, right associativity) : sm_scope.
Notation "m ;;; k" := (bind m (fun _ => k))
  (at level 61, right associativity) : sm_scope.
Global Open Scope sm_scope.

(** Go integer conversions. *)
Definition uwrap (bits z : Z) : Z := z mod 2 ^ bits.
Definition swrap (bits z : Z) : Z :=
  let m := z mod 2 ^ bits in
  if m <? 2 ^ (bits - 1) then m else m - 2 ^ bits.

(** [data[pos:]]; [None] is the run-time panic "slice bounds out of range". *)
Definition slice_from (l : list Z) (pos : Z) : option (list Z) :=
  if (0 <=? pos) && (pos <=? zlen l)
  then Some (skipn (Z.to_nat pos) l) else None.

(** [data[pos:pos+n]] for [pos + n <= len data] (the callers check that
    before). *)
Definition slice_n (l : list Z) (pos n : Z) : option (list Z) :=
  if (0 <=? pos) && (0 <=? n) && (pos + n <=? zlen l)
  then Some (firstn (Z.to_nat n) (skipn (Z.to_nat pos) l)) else None.
