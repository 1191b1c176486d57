(** Induction over types, with all smaller types available. *)
From Verif Require Import Types.

Fixpoint ty_size (t : ty) : nat :=
  match t with
  | TPtr t' | TArray _ t' | TSlice t' | TCodec _ t' => S (ty_size t')
  | TMap k v => S (ty_size k + ty_size v)
  | TStruct fs => S (fold_right (fun ht n => ty_size (snd ht) + n) 0 fs)
  | _ => 1
  end%nat.

Lemma ty_size_field fs h t : In (h, t) fs -> (ty_size t < ty_size (TStruct fs))%nat.
Proof.
  cbn [ty_size]. induction fs as [|a fs IH]; [easy|]. cbn [In fold_right].
  intros [->|Hin]; cbn [snd]; [lia|]. specialize (IH Hin). lia.
Qed.

Lemma ty_strong_ind (P : ty -> Prop) :
  (forall t, (forall t', (ty_size t' < ty_size t)%nat -> P t') -> P t) ->
  forall t, P t.
Proof.
  intros H t. remember (ty_size t) as n eqn:En. revert t En.
  induction n as [n IH] using (well_founded_induction Nat.lt_wf_0).
  intros t ->. apply H. intros t' Hlt. apply (IH _ Hlt). reflexivity.
Qed.

(** Structural induction. *)
Lemma ty_ind' (P : ty -> Prop)
  (HBool : P TBool) (HUint : forall n w, P (TUint n w))
  (HInt : forall n w, P (TInt n w)) (HFloat : forall f, P (TFloat f))
  (HString : P TString) (HNative : forall s, P (TNative s)) (HOther : P TOther)
  (HIface : P TIface) (HPtr : forall t, P t -> P (TPtr t))
  (HArray : forall n t, P t -> P (TArray n t))
  (HSlice : forall t, P t -> P (TSlice t))
  (HMap : forall k v, P k -> P v -> P (TMap k v))
  (HStruct : forall fs, Forall (fun ht => P (snd ht)) fs -> P (TStruct fs))
  (HCodec : forall c u, P u -> P (TCodec c u))
  (HDeep : P TDeep) : forall t, P t.
Proof.
  fix IH 1. intro t.
  destruct t as [|n w|n w|f| |s| | |t|n t|t|k v|fs|c u|].
  1: exact HBool. 1: apply HUint. 1: apply HInt. 1: apply HFloat. 1: exact HString.
  1: apply HNative. 1: exact HOther. 1: exact HIface.
  1: apply HPtr, IH. 1: apply HArray, IH. 1: apply HSlice, IH.
  1: apply HMap; apply IH.
  1: { apply HStruct. induction fs as [|[h t] fs IHfs]; constructor; [apply IH|exact IHfs]. }
  1: apply HCodec, IH. exact HDeep.
Qed.
