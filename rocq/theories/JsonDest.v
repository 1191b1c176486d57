(** What the JSON methods leave in the variable, also if they fail (C76). *)
From Verif Require Import Base Types Num NumFacts Spec Text Json Utf8Facts TextFacts JsonFacts JsonSpec JsonExact.
Notation length := Datatypes.length.

(** * Model *)

(** hex.DecodeString: encoding/hex Decode stores bytes until there is an error
    or no two characters are left, and what it has stored is returned with the
    error (used at /repo/types.go:90). *)
Fixpoint hex_run (s : list Z) : list Z * bool :=
  match s with
  | [] => ([], true)
  | [_] => ([], false)
  | a :: b :: r =>
      match hex_val a, hex_val b with
      | Some x, Some y => let '(l, ok) := hex_run r in (16 * x + y :: l, ok)
      | _, _ => ([], false)
      end
  end.
(** HexBytes.UnmarshalJSON on a variable that holds [old], /repo/types.go:83-92. *)
Definition hexbytes_json_into (old data : list Z) : outcome unit * list Z :=
  match json_string [] data with
  | None => (Err EMsg, old)
  | Some s => let '(l, ok) := hex_run s in (if ok then Ok tt else Err EMsg, l)
  end.
(** unmarshalJSON_hex on the number [(lo, hi)], /repo/u128.go:143-164: one half
    is stored before the slice for the other is found to be too short. *)
Definition u128_hex_into (lo hi : Z) (o : order) (s : list Z) : outcome unit * (Z * Z) :=
  let v := skipn 2 s in
  if negb (zlen v =? 16) then (Err EMsg, (lo, hi))
  else match hex_decode v with
       | None => (Err EMsg, (lo, hi))
       | Some data =>
           match uint64_at o (firstn 8 data) with
           | Ok a =>
               match o, uint64_at o (skipn 8 data) with
               | LE, Ok b => (Ok tt, (a, b))
               | LE, _ => (Panic, (a, hi))
               | BE, Ok b => (Ok tt, (b, a))
               | BE, _ => (Panic, (lo, a))
               end
           | _ => (Panic, (lo, hi))
           end
       end.
(** A call that stores its result at the end, if there is one:
    unmarshalJSON_decimal (/repo/u128.go:123-141), Bool (types.go:46-61),
    JSONFloat64 (179-207), Int64 (238-267), Uint64 (298-327), Int128 and
    Float128 (u128.go:222-232, 266-276). *)
Definition at_end {A} (r : outcome A) (old : A) : outcome unit * A :=
  match r with
  | Ok a => (Ok tt, a)
  | Err e => (Err e, old)
  | Panic => (Panic, old)
  | Deep => (Deep, old)
  | Stuck => (Stuck, old)
  end.
(** Uint128.UnmarshalJSON on the number [(lo, hi)], /repo/u128.go:106-121. *)
Definition u128_json_into (lo hi : Z) (o : order) (data : list Z) : outcome unit * (Z * Z) :=
  if is_null data then (Ok tt, (lo, hi))
  else match json_string [] data with
       | None => (Err EMsg, (lo, hi))
       | Some s =>
           match s with
           | 48 :: 120 :: _ | 48 :: 88 :: _ => u128_hex_into lo hi o s
           | _ => at_end (u128_json_decimal o s) (lo, hi)
           end
       end.

(** * Facts *)

Lemma pair_ind {A} (P : list A -> Prop) : P [] -> (forall a, P [a]) -> (forall a b s, P s -> P (a :: b :: s)) -> forall s, P s.
Proof.
  intros H0 H1 H2. fix IH 1. intros [|a [|b s]]; [exact H0|apply H1|apply H2, IH].
Qed.
Lemma hex_run_decode s : hex_decode s = if snd (hex_run s) then Some (fst (hex_run s)) else None.
Proof.
  induction s as [|a|a b s IH] using pair_ind; [reflexivity..|]. cbn [hex_decode hex_run].
  destruct (hex_val a) as [x|]; [|reflexivity]. destruct (hex_val b) as [y|]; [|reflexivity].
  rewrite IH. destruct (hex_run s) as [l [|]]; reflexivity.
Qed.

(** No two hexadecimal digits in front. *)
Definition no_pair (q : list Z) : Prop := forall a b r x y, q = a :: b :: r -> hexd a x -> hexd b y -> False.

Lemma hex_run_prefix s : exists p q, s = p ++ q /\ hex_text p (fst (hex_run s)) /\ no_pair q /\
  (snd (hex_run s) = true <-> q = []).
Proof.
  induction s as [|a|a b s IH] using pair_ind.
  - exists [], []. repeat split; [constructor|discriminate].
  - exists [], [a]. repeat split; [constructor|discriminate|discriminate..].
  - cbn [hex_run].
    assert (N : (hex_val a = None \/ hex_val b = None) -> exists p q, a :: b :: s = p ++ q /\ hex_text p [] /\ no_pair q /\ (false = true <-> q = [])).
    { intro H. exists [], (a :: b :: s). split; [reflexivity|]. split; [constructor|]. split; [|now split].
      intros a' b' r x y E. injection E as -> -> ->. rewrite <- !hexd_val. intuition congruence. }
    destruct (hex_val a) as [x|] eqn:Ea; [|apply N; now left]. destruct (hex_val b) as [y|] eqn:Eb; [|apply N; now right].
    destruct IH as (p & q & -> & H1 & H2 & H3). destruct (hex_run (p ++ q)) as [l ok]. cbn [fst snd] in *.
    exists (a :: b :: p), q. split; [reflexivity|]. split; [|now split]. constructor; [now apply hexd_val..|exact H1].
Qed.

Theorem hexbytes_into_agrees old data : hexbytes_unmarshal_json data =
  match hexbytes_json_into old data with (Ok _, l) => Ok l | (Err e, _) => Err e | _ => Panic end.
Proof.
  unfold hexbytes_unmarshal_json, hexbytes_json_into. destruct (json_string [] data) as [s|]; [|reflexivity].
  rewrite hex_run_decode. destruct (hex_run s) as [l [|]]; reflexivity.
Qed.
Theorem hexbytes_into_left old data : bytes_ok data ->
  (exists s p q l, json_str s data /\ s = p ++ q /\ hex_text p l /\ no_pair q /\
     hexbytes_json_into old data = (if match q with [] => true | _ => false end then Ok tt else Err EMsg, l)) \/
  (json_nil data /\ hexbytes_json_into old data = (Ok tt, [])) \/
  ((forall s, ~ json_str s data) /\ ~ json_nil data /\ hexbytes_json_into old data = (Err EMsg, old)).
Proof.
  intro Hb. unfold hexbytes_json_into. destruct (json_string [] data) as [s|] eqn:E.
  - apply json_string_exact in E; [|exact Hb]. destruct E as [E|[E ->]]; [left|right; left; now split].
    destruct (hex_run_prefix s) as (p & q & Es & H1 & H2 & H3). exists s, p, q, (fst (hex_run s)).
    split; [exact E|]. split; [exact Es|]. split; [exact H1|]. split; [exact H2|].
    destruct (hex_run s) as [l ok]. cbn [fst snd] in *. destruct q, ok; try reflexivity; intuition congruence.
  - right. right. split; [|split; [|reflexivity]].
    + intros s Hs. pose proof (proj2 (json_string_exact [] data s Hb) (or_introl Hs)). congruence.
    + intro Hn. pose proof (proj2 (json_string_exact [] data [] Hb) (or_intror (conj Hn eq_refl))). congruence.
Qed.

Lemma u128_hex_into_eq lo hi o c r : u128_hex_into lo hi o (48 :: c :: r) =
  match hex_decode r with
  | Some data => if zlen r =? 16 then (Panic, match o with LE => (get_uint LE data, hi) | BE => (lo, get_uint BE data) end)
                 else (Err EMsg, (lo, hi))
  | None => (Err EMsg, (lo, hi))
  end.
Proof.
  unfold u128_hex_into. cbn [skipn]. cbv zeta. destruct (Z.eqb_spec (zlen r) 16) as [L|]; cbn [negb]; [|now destruct (hex_decode r)].
  destruct (hex_decode r) as [data|] eqn:E; [|reflexivity].
  destruct (hex_decode_bytes (S (length r)) r data ltac:(lia) E) as (_ & L2).
  assert (L3 : length data = 8%nat) by (unfold zlen in *; lia).
  do 8 (destruct data as [|? data]; [discriminate|]). destruct data; [|discriminate]. now destruct o.
Qed.
Definition outcome_of {A} (x : outcome unit * A) : outcome A :=
  match x with (Ok _, a) => Ok a | (Err e, _) => Err e | (Panic, _) => Panic | (Deep, _) => Deep | (Stuck, _) => Stuck end.
Lemma outcome_at_end {A} (r : outcome A) a : outcome_of (at_end r a) = r.
Proof. now destruct r. Qed.
Lemma u128_hex_into_agrees lo hi o s : u128_json_hex o s = outcome_of (u128_hex_into lo hi o s).
Proof.
  unfold u128_json_hex, u128_hex_into. cbv zeta. destruct (negb (zlen (skipn 2 s) =? 16)); [reflexivity|].
  destruct (hex_decode (skipn 2 s)) as [data|]; [|reflexivity].
  unfold uint64_at. destruct o; destruct (zlen (firstn 8 data) <? 8); try reflexivity; destruct (zlen (skipn 8 data) <? 8); reflexivity.
Qed.
Lemma u128_into_dispatch lo hi o s :
  match s with 48 :: 120 :: _ | 48 :: 88 :: _ => u128_hex_into lo hi o s | _ => at_end (u128_json_decimal o s) (lo, hi) end =
  if match s with 48 :: 120 :: _ | 48 :: 88 :: _ => true | _ => false end then u128_hex_into lo hi o s
  else at_end (u128_json_decimal o s) (lo, hi).
Proof.
  destruct s as [|a [|b r]]; try reflexivity.
  - destruct a as [|p|p]; try reflexivity. do 6 (destruct p as [p|p|]; try reflexivity).
  - destruct a as [|p|p]; try reflexivity. do 6 (destruct p as [p|p|]; try reflexivity).
    destruct b as [|p|p]; try reflexivity. do 7 (destruct p as [p|p|]; try reflexivity).
Qed.
Lemma u128_dispatch' o s :
  match s with 48 :: 120 :: _ | 48 :: 88 :: _ => u128_json_hex o s | _ => u128_json_decimal o s end =
  if match s with 48 :: 120 :: _ | 48 :: 88 :: _ => true | _ => false end then u128_json_hex o s else u128_json_decimal o s.
Proof.
  destruct s as [|a [|b r]]; try reflexivity.
  - destruct a as [|p|p]; try reflexivity. do 6 (destruct p as [p|p|]; try reflexivity).
  - destruct a as [|p|p]; try reflexivity. do 6 (destruct p as [p|p|]; try reflexivity).
    destruct b as [|p|p]; try reflexivity. do 7 (destruct p as [p|p|]; try reflexivity).
Qed.
Theorem u128_into_agrees lo hi o data : u128_unmarshal_json lo hi o data = outcome_of (u128_json_into lo hi o data).
Proof.
  unfold u128_unmarshal_json, u128_json_into. destruct (is_null data); [reflexivity|].
  destruct (json_string [] data) as [s|]; [|reflexivity]. rewrite u128_into_dispatch, u128_dispatch'.
  destruct (match s with 48 :: 120 :: _ | 48 :: 88 :: _ => true | _ => false end).
  - apply u128_hex_into_agrees.
  - symmetry. apply outcome_at_end.
Qed.
(** Only the panic behind 0x stores something. *)
Theorem u128_into_left lo hi o data : bytes_ok data ->
  fst (u128_json_into lo hi o data) = Ok tt \/ snd (u128_json_into lo hi o data) = (lo, hi) \/
  exists s x bs, json_str (48 :: x :: s) data /\ (x = 120 \/ x = 88) /\ hex_text s bs /\ zlen bs = 8 /\
    u128_json_into lo hi o data = (Panic, match o with LE => (get_uint LE bs, hi) | BE => (lo, get_uint BE bs) end).
Proof.
  intro Hb. unfold u128_json_into. destruct (is_null data); [now left|].
  destruct (json_string [] data) as [s|] eqn:E; [|right; now left]. rewrite u128_into_dispatch.
  destruct (match s with 48 :: 120 :: _ | 48 :: 88 :: _ => true | _ => false end) eqn:H.
  - assert (exists x r, s = 48 :: x :: r /\ (x = 120 \/ x = 88)) as (x & r & -> & Hx).
    { destruct s as [|a [|b r]]; [easy|destruct a as [|p|p]; try easy; do 6 (destruct p as [p|p|]; try easy)|].
      exists b, r. destruct a as [|p|p]; try easy. do 6 (destruct p as [p|p|]; try easy).
      destruct b as [|p|p]; try easy. do 7 (destruct p as [p|p|]; try easy); split; auto. }
    rewrite u128_hex_into_eq. destruct (hex_decode r) as [bs|] eqn:D; [|right; now left].
    destruct (Z.eqb_spec (zlen r) 16) as [L|]; [|right; now left]. right. right. exists r, x, bs.
    apply json_string_exact in E; [|exact Hb]. destruct E as [E|[_ E]]; [|discriminate].
    split; [exact E|]. split; [exact Hx|]. destruct (hex_decode_bytes (S (length r)) r bs ltac:(lia) D) as (_ & L2).
    split; [now apply hex_decode_exact|]. split; [lia|reflexivity].
  - destruct (u128_json_decimal o s) as [p| | | |]; cbn; auto.
Qed.
