(** Borsh maps with float keys. *)
From Verif Require Import Base Num Types EncPrim Enc Builtin Spec NumFacts EncWire RoundTrip MapFacts FloatSpec FloatFacts.
From Coq Require Import Permutation Sorting.Sorted Lia.
Notation length := Datatypes.length.

Definition fkey (p : Z * val) : val * val := (VFloat (fst p), snd p).
Lemma float_map f vt m : ok Borsh (TMap (TFloat f) vt) None LE (VMap (Some m)) ->
  exists l : list (Z * val), Permutation m (map fkey l) /\
    StronglySorted (fun a b => float_units f (fst a) < float_units f (fst b)) l /\
    marshal Borsh (TMap (TFloat f) vt) (VMap (Some m)) =
      (Ok tt, fixed LE 4 (zlen m) ++
              flat_map (fun e => fixed LE (fbytes f) (fst e) ++ snd (marshal Borsh vt (snd e))) l).
Proof.
  intro H. destruct (borsh_map_sorted _ _ _ H) as (l & Pm & Sl & Em).
  assert (F : Forall (fun e => exists b, fst e = VFloat b /\ 0 <= b < 2 ^ fbits f /\ f_isnan f b = false) l).
  { destruct H as (om & E & _ & Fa & _). injection E as <-. cbn in Fa. apply (Permutation_Forall Pm) in Fa.
    eapply Forall_impl; [|exact Fa]. intros e ((b & Hb & Hr & Hn) & _). exists b. auto. }
  assert (X : exists l', l = map fkey l' /\ Forall (fun e => 0 <= fst e < 2 ^ fbits f /\ f_isnan f (fst e) = false) l').
  { clear - F. induction F as [|[k v] l (b & Hk & Hb) _ (l' & -> & F')]; [exists []; split; [reflexivity|constructor]|].
    cbn in Hk. subst k. exists ((b, v) :: l'). split; [reflexivity|]. constructor; auto. }
  destruct X as (l' & -> & F'). exists l'. split; [exact Pm|]. split.
  - clear - Sl F'. induction l' as [|e l' IH]; [constructor|]. cbn [map] in Sl. apply StronglySorted_inv in Sl as [Sl Hd].
    inversion_clear F' as [|? ? [Hr _] F]. constructor; [now apply IH|]. apply Forall_forall. intros x Hx.
    rewrite Forall_forall in Hd, F. specialize (Hd (fkey x) (in_map _ _ _ Hx)). cbn [fkey fst] in Hd.
    apply float_key_before in Hd; [exact Hd|exact Hr|]. exact (proj1 (F x Hx)).
  - rewrite Em. do 2 f_equal. clear - F'. induction F' as [|e l' [Hr Hn] _ IH]; [reflexivity|]. cbn [map flat_map].
    f_equal; [|exact IH]. f_equal. cbn [fkey fst]. rewrite marshal_wire by (exists (fst e); auto). cbn [snd wire num_order].
    now rewrite quiet_notnan.
Qed.
