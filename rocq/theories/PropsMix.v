(** C67, continued: structs with interfaces that hold pointers. *)
From Verif Require Import Types DecPrim Enc Dec Builtin Spec TyInd Check Dest RoundTrip GoEnc GoEncFacts GoDec GoDecFacts MixSpec MixFacts.

(** Decode(&s), s a struct at [l] (a variable, or part of one) that has among its
    fields, or the fields of structs in it or its pointers, interfaces holding pointers to other
    variables (which may be structs with such interfaces again), no two of them
    to the same: the outcome is that of decoding a
    struct with pointers instead of the interfaces, what the pointers would point
    to is left in the variables, the interfaces keep their pointers, and nothing
    else is changed.  Whatever the input, and also if decoding fails half-way.
    Optional interfaces that are absent become nil, like optional pointers; their
    variables are left alone. *)
Theorem C67_struct : forall W named items l st d fuel, NoDup (l_var l :: targets items) -> good_items named (d_enc d) items ->
  shows st l items (map start items) -> (3 * ty_size (TStruct (map like items)) + 4 <= fuel)%nat ->
  let '(r, v', d') := dest_val (d_enc d) W (TStruct (map like items)) (DStart opt0) (VStruct (map start items)) d in
  exists xs st' d1, go_decode W named fuel (RAddr (TStruct (map decl items)) l) (mkG d st) = (r, mkG d1 st') /\
    v' = VStruct xs /\ filled st st' l items xs /\ (r <> Panic -> d1 = d').
Proof. exact dest_mixed. Qed.
Print Assumptions C67_struct.
(** The same with Decode as in Dec.v. *)
Theorem C67_struct_decode : forall W named items l st d fuel, NoDup (l_var l :: targets items) -> good_items named (d_enc d) items ->
  shows st l items (map start items) -> (3 * ty_size (TStruct (map like items)) + 4 <= fuel)%nat ->
  let '(r, d') := decode (TStruct (map like items)) (VStruct (map start items)) d in
  exists xs st' d1, go_decode W named fuel (RAddr (TStruct (map decl items)) l) (mkG d st) = (blame r, mkG d1 st') /\
    filled st st' l items xs /\ (r <> Panic -> d1 = d') /\ (forall y, r = Ok y -> y = VStruct xs).
Proof. exact decode_mixed. Qed.
Print Assumptions C67_struct_decode.

(** What Encode writes for the struct with pointers is read into the struct with
    interfaces: the bytes are consumed, and (if the value is one that is read
    back and covers all of the variables) the fields and the variables behind
    the interfaces are then those of the value written. *)
Theorem C67_struct_reads : forall W named E items l st fuel v, NoDup (l_var l :: targets items) -> good_items named E items ->
  shows st l items (map start items) -> (3 * ty_size (TStruct (map like items)) + 4 <= fuel)%nat ->
  ok E (TStruct (map like items)) None LE v ->
  exists b xs st' d', marshal E (TStruct (map like items)) v = (Ok tt, b) /\
    go_decode W named fuel (RAddr (TStruct (map decl items)) l) (mkG (new_decoder E b) st) = (Ok tt, mkG d' st') /\
    d_pos d' = zlen b /\ filled st st' l items xs /\
    (fits (TStruct (map like items)) v -> canon E (TStruct (map like items)) None LE v -> fills E (TStruct (map like items)) None LE v -> v = VStruct xs).
Proof. exact mixed_reads. Qed.
Print Assumptions C67_struct_reads.
(** What Encode writes for the struct with interfaces is not: Encode writes
    nothing for interfaces (C73), Decode reads through them. *)
Theorem C67_return_refuted : exists t v named k, holds named 1 = Some (TUint UPlain W8, mkLoc k []) /\
  forall E W dyn x, let '(r, s) := go_encode dyn 40 (Rv t v) (new_encoder E (fun _ => None)) in
    r = Ok tt /\ exists e, fst (go_decode W named 80 (RAddr t (mkLoc 0 [])) (mkG (new_decoder E (e_acc s)) [v; VNum x])) = Err e.
Proof.
  exists (TStruct [(mkF "A" true notag, TIface)]), (VStruct [VIface (Some 1)]),
    (mkOut (fun _ => false) (fun z => if z =? 1 then Some (TUint UPlain W8, mkLoc 1 []) else None)), 1%nat.
  split; [reflexivity|]. intros E W dyn x.
  destruct E; match goal with |- let '(r, s) := ?c in _ => let y := eval vm_compute in c in change c with y end; split; try reflexivity; eexists; vm_compute; reflexivity.
Qed.
Print Assumptions C67_return_refuted.

(** struct { A interface{}; N uint8; S []uint8; D struct { B interface{}; C interface{} } }: A holds a pointer
    to a string, B one to a struct, C is nil; B is optional. *)
Definition c67m_opt : rawtag := mkTag "optional" "" "".

Definition c67m_in : ty := TStruct [(mkF "X" true notag, TInt false W16); (mkF "Y" true notag, TBool)].
Definition c67m_world : outside := mkOut (fun _ => false) (fun z =>
  match z with 1 => Some (TString, mkLoc 2 []) | 2 => Some (c67m_in, mkLoc 1 []) | _ => None end).
Definition c67m : list item :=
  [Held (mkF "A" true notag) 1 TString 2 (VStr [88]); Plain (mkF "N" true notag) (TUint UPlain W8) (VNum 3);
   Plain (mkF "S" true notag) (TSlice (TUint UPlain W8)) (VSlice None);
   Inner (mkF "D" true notag) [Held (mkF "B" true c67m_opt) 2 c67m_in 1 (VStruct [VNum 4; VBool true]); Alone (mkF "C" true notag) None]].
Definition c67m_mem : mem :=
  [VStruct [VIface (Some 1); VNum 3; VSlice None; VStruct [VIface (Some 2); VIface None]]; VStruct [VNum 4; VBool true]; VStr [88]; VNum 99].
Example C67_ex_struct : forall E, NoDup (0%nat :: targets c67m) /\ good_items c67m_world E c67m /\
  shows c67m_mem (mkLoc 0 []) c67m (map start c67m).
Proof.
  intro E. split.
  { repeat constructor; cbn; intuition lia. }
  split.
  { split; [unfold open_enum; now destruct E|]. cbn [every c67m good_item]. repeat split; intros; try (unfold open_enum; now destruct E);
      try (apply fitsb_ok; reflexivity); try (right; cbn; tauto); try discriminate; cbn; tauto. }
  split; [reflexivity|]. split; [exists (VStr [88]); split; [reflexivity|now left]|]. split; [exact I|]. split; [exact I|]. split; [|exact I].
  eexists. split; [reflexivity|]. split; [|now split]. exists (VStruct [VNum 4; VBool true]). split; [reflexivity|now left].
Qed.
Definition c67m_v : val := VStruct [VPtr (Some (VStr [72; 105])); VNum 7; VSlice (Some [VNum 5]); VStruct [VPtr (Some (VStruct [VNum 513; VBool false])); VIface None]].
Example C67_ex_reads : ok Borsh (TStruct (map like c67m)) None LE c67m_v.
Proof. apply okb_ok. vm_compute. reflexivity. Qed.
Definition c67m_run E data := let '(r, s) := go_decode (fun _ _ v _ => v) c67m_world 80 (RAddr (TStruct (map decl c67m)) (mkLoc 0 [])) (mkG (new_decoder E data) c67m_mem) in
  (r, g_mem s, d_pos (g_dec s)).
(** A complete input, one without B, and one that ends in B. *)
Example C67_ex_struct_run :
  c67m_run Borsh [2; 0; 0; 0; 72; 105; 7; 1; 0; 0; 0; 5; 1; 1; 2; 0] =
    (Ok tt, [VStruct [VIface (Some 1); VNum 7; VSlice (Some [VNum 5]); VStruct [VIface (Some 2); VIface None]]; VStruct [VNum 513; VBool false]; VStr [72; 105]; VNum 99], 16) /\
  c67m_run Borsh [2; 0; 0; 0; 72; 105; 7; 1; 0; 0; 0; 5; 0] =
    (Ok tt, [VStruct [VIface (Some 1); VNum 7; VSlice (Some [VNum 5]); VStruct [VIface None; VIface None]]; VStruct [VNum 4; VBool true]; VStr [72; 105]; VNum 99], 13) /\
  c67m_run Borsh [2; 0; 0; 0; 72; 105; 7; 0; 0; 0; 0; 1; 1; 2] =
    (Err (EWrap (EWrap (EWrap EMsg))), [VStruct [VIface (Some 1); VNum 7; VSlice None; VStruct [VIface (Some 2); VIface None]]; VStruct [VNum 513; VBool false]; VStr [72; 105]; VNum 99], 14) /\
  unmarshal Borsh (TStruct (map like c67m)) (VStruct (map start c67m)) [2; 0; 0; 0; 72; 105; 7; 1; 0; 0; 0; 5; 1; 1; 2; 0] =
    Ok (VStruct [VPtr (Some (VStr [72; 105])); VNum 7; VSlice (Some [VNum 5]); VStruct [VPtr (Some (VStruct [VNum 513; VBool false])); VIface None]]).
Proof. vm_compute. repeat split. Qed.

(** An enum with a variant that is an interface holding a pointer to a uint16. *)
Definition c67e : list item :=
  [Plain (mkF "Enum" true (mkTag "" "" "true")) (TUint UBorshEnum W8) (VNum 0); Plain (mkF "A" true notag) TString (VStr []);
   Held (mkF "B" true notag) 1 (TUint UPlain W16) 1 (VNum 5)].
Definition c67e_world : outside := mkOut (fun _ => false) (fun z => if z =? 1 then Some (TUint UPlain W16, mkLoc 1 []) else None).
Definition c67e_mem : mem := [VStruct [VNum 0; VStr []; VIface (Some 1)]; VNum 5].
Example C67_ex_enum : enum_struct Borsh (map decl c67e) = true /\ NoDup (0%nat :: targets c67e) /\
  good_items c67e_world Borsh c67e /\ shows c67e_mem (mkLoc 0 []) c67e (map start c67e) /\
  forall W, fst (go_decode W c67e_world 80 (RAddr (TStruct (map decl c67e)) (mkLoc 0 [])) (mkG (new_decoder Borsh [1; 2; 1]) c67e_mem)) = Ok tt /\
    g_mem (snd (go_decode W c67e_world 80 (RAddr (TStruct (map decl c67e)) (mkLoc 0 [])) (mkG (new_decoder Borsh [1; 2; 1]) c67e_mem))) =
      [VStruct [VNum 1; VStr []; VIface (Some 1)]; VNum 258].
Proof.
  split; [reflexivity|]. split; [repeat constructor; cbn; intuition lia|].
  split; [|split; [|intro W; vm_compute; now split]].
  - split; [intros _ it [<-|[<-|[<-|[]]]]; reflexivity|]. cbn [every c67e good_item]. repeat split; intros;
      try (apply fitsb_ok; reflexivity); try (right; cbn; tauto); cbn; tauto.
  - split; [reflexivity|]. split; [exact I|]. split; [exact I|]. split; [|exact I]. exists (VNum 5). split; [reflexivity|now left].
Qed.

(** A chain: struct { N uint8; Next interface{} }, Next holding a pointer to a
    struct of the same type, whose Next is optional and holds a pointer to a
    uint16. *)
Definition c67f_last : list item := [Plain (mkF "N" true notag) (TUint UPlain W8) (VNum 2); Held (mkF "Next" true c67m_opt) 2 (TUint UPlain W16) 2 (VNum 3)].
Definition c67f : list item := [Plain (mkF "N" true notag) (TUint UPlain W8) (VNum 1); Far (mkF "Next" true notag) 1 1 c67f_last].
Definition c67f_world : outside := mkOut (fun _ => false) (fun z =>
  match z with 1 => Some (TStruct (map decl c67f_last), mkLoc 1 []) | 2 => Some (TUint UPlain W16, mkLoc 2 []) | _ => None end).
Definition c67f_mem : mem := [VStruct [VNum 1; VIface (Some 1)]; VStruct [VNum 2; VIface (Some 2)]; VNum 3; VNum 99].
Definition c67f_run W E data := let '(r, s) := go_decode W c67f_world 80 (RAddr (TStruct (map decl c67f)) (mkLoc 0 [])) (mkG (new_decoder E data) c67f_mem) in
  (r, g_mem s).
Example C67_ex_chain : forall E W, NoDup (0%nat :: targets c67f) /\ good_items c67f_world E c67f /\ shows c67f_mem (mkLoc 0 []) c67f (map start c67f) /\
  c67f_run W Borsh [7; 8; 1; 9; 1] = (Ok tt, [VStruct [VNum 7; VIface (Some 1)]; VStruct [VNum 8; VIface (Some 2)]; VNum 265; VNum 99]) /\
  c67f_run W Borsh [7; 8; 0] = (Ok tt, [VStruct [VNum 7; VIface (Some 1)]; VStruct [VNum 8; VIface None]; VNum 3; VNum 99]).
Proof.
  intros E W. split; [repeat constructor; cbn; intuition lia|]. split; [|split; [|split; vm_compute; reflexivity]].
  - split; [unfold open_enum; now destruct E|]. cbn [every c67f c67f_last good_item]. repeat split; intros; try (unfold open_enum; now destruct E);
      try (apply fitsb_ok; reflexivity); try (right; cbn; tauto); try discriminate; cbn; tauto.
  - split; [reflexivity|]. split; [exact I|]. split; [|exact I]. exists [VNum 2; VPtr (Some (VNum 3))]. split; [reflexivity|]. split; [|now left].
    split; [exact I|]. split; [|exact I]. exists (VNum 3). split; [reflexivity|now left].
Qed.

(** A value that is read back in full into the chain. *)
Definition c67f_v : val := VStruct [VNum 7; VPtr (Some (VStruct [VNum 8; VPtr (Some (VNum 265))]))].
Example C67_ex_chain_reads : ok Borsh (TStruct (map like c67f)) None LE c67f_v /\ fits (TStruct (map like c67f)) c67f_v /\
  canon Borsh (TStruct (map like c67f)) None LE c67f_v /\ fills Borsh (TStruct (map like c67f)) None LE c67f_v.
Proof.
  split; [apply okb_ok; vm_compute; reflexivity|]. split; [apply fitsb_ok; reflexivity|]. split.
  - cbn. eexists. split; [reflexivity|]. cbn. repeat split. eexists. split; [reflexivity|]. cbn.
    eexists. split; [reflexivity|]. cbn. repeat split. eexists. split; [reflexivity|]. exact I.
  - cbn. repeat split; right; cbn; repeat split; right; exact I.
Qed.

(** struct { P *struct { I interface{} } }: P is optional, I holds a pointer to
    a string.  If P is absent it becomes nil, and the string is left alone. *)
Definition c67p : list item := [Near (mkF "P" true c67m_opt) [Held (mkF "I" true notag) 1 TString 1 (VStr [88])]].
Definition c67p_world : outside := mkOut (fun _ => false) (fun z => if z =? 1 then Some (TString, mkLoc 1 []) else None).
Definition c67p_mem : mem := [VStruct [VPtr (Some (VStruct [VIface (Some 1)]))]; VStr [88]].
Definition c67p_run W E data := let '(r, s) := go_decode W c67p_world 80 (RAddr (TStruct (map decl c67p)) (mkLoc 0 [])) (mkG (new_decoder E data) c67p_mem) in
  (r, g_mem s).
Example C67_ex_pointer : forall E W, NoDup (0%nat :: targets c67p) /\ good_items c67p_world E c67p /\ shows c67p_mem (mkLoc 0 []) c67p (map start c67p) /\
  c67p_run W Borsh [1; 2; 0; 0; 0; 72; 105] = (Ok tt, [VStruct [VPtr (Some (VStruct [VIface (Some 1)]))]; VStr [72; 105]]) /\
  c67p_run W Borsh [0; 2; 0; 0; 0; 72; 105] = (Ok tt, [VStruct [VPtr None]; VStr [88]]).
Proof.
  intros E W. split; [repeat constructor; cbn; intuition lia|]. split; [|split; [|split; vm_compute; reflexivity]].
  - split; [unfold open_enum; now destruct E|]. cbn [every c67p good_item]. repeat split; intros; try (unfold open_enum; now destruct E);
      try (apply fitsb_ok; reflexivity); try (right; cbn; tauto); try discriminate; cbn; tauto.
  - split; [reflexivity|]. split; [|exact I]. exists [VPtr (Some (VStr [88]))]. split; [|now left]. split; [|exact I]. exists (VStr [88]). split; [reflexivity|now left].
Qed.

(** In Borsh a pointer field and an interface holding a pointer differ if the
    variable has a method UnmarshalWithDecoder that goes by what the variable
    holds: the method is called on a new variable for the pointer, on the old
    one for the interface (decoder_borsh.go:411-435 looks at the type of the
    field).  Here, a method that adds the byte it reads. *)
Definition c67_add : ty :=
  TCodec (mkCodec None false panic (Some (fun v => match v with VNum z => b <- read_byte ;; ret (VNum (uwrap 16 (z + b))) | _ => stuck end))) (TUint UNamed W16).
Theorem C67_own_refuted : exists h t k w named st k0 data ys,
  settled named t /\ fits t w /\ holds named 1 = Some (t, mkLoc k []) /\ shows st (mkLoc k0 []) [Held h 1 t k w] [VPtr (Some w)] /\ k <> k0 /\
  f_tag h = notag /\
  unmarshal Borsh (TStruct [(h, TPtr t)]) (VStruct [VPtr (Some w)]) data = Ok (VStruct ys) /\
  forall W, exists st' d', go_decode W named 80 (RAddr (TStruct [(h, TIface)]) (mkLoc k0 [])) (mkG (new_decoder Borsh data) st) = (Ok tt, mkG d' st') /\
    ~ shows st' (mkLoc k0 []) [Held h 1 t k w] ys.
Proof.
  exists (mkF "A" true notag), c67_add, 1%nat, (VNum 40), (mkOut (fun _ => false) (fun z => if z =? 1 then Some (c67_add, mkLoc 1 []) else None)),
    [VStruct [VIface (Some 1)]; VNum 40], 0%nat, [2], [VPtr (Some (VNum 2))].
  split; [split; [cbn; tauto|right; exact I]|]. split; [apply fitsb_ok; reflexivity|]. split; [reflexivity|].
  split; [split; [reflexivity|split; [|exact I]; exists (VNum 40); split; [reflexivity|now left]]|]. split; [discriminate|]. split; [reflexivity|].
  split; [vm_compute; reflexivity|]. intro W. eexists _, _. split; [vm_compute; reflexivity|].
  intros [_ [Hb _]]. destruct Hb as (y & Hy & [Hn|[Hn _]]); cbn in Hy; congruence.
Qed.
Print Assumptions C67_own_refuted.

(** Two interfaces that hold pointers to the same variable: what the second
    field reads replaces what the first has read, while two pointers would show
    both values.  So C67_struct needs different variables. *)
Definition c67a (h1 h2 : fhdr) : list item := [Held h1 1 (TUint UPlain W8) 1 (VNum 5); Held h2 2 (TUint UPlain W8) 1 (VNum 5)].
Theorem C67_alias_refuted : exists h1 h2 named st,
  (forall E, good_items named E (c67a h1 h2)) /\ shows st (mkLoc 0 []) (c67a h1 h2) (map start (c67a h1 h2)) /\
  forall E W a b, 0 <= a < 256 -> 0 <= b < 256 -> a <> b ->
    unmarshal E (TStruct (map like (c67a h1 h2))) (VStruct (map start (c67a h1 h2))) [a; b] = Ok (VStruct [VPtr (Some (VNum a)); VPtr (Some (VNum b))]) /\
    exists st' d', go_decode W named 80 (RAddr (TStruct (map decl (c67a h1 h2))) (mkLoc 0 [])) (mkG (new_decoder E [a; b]) st) = (Ok tt, mkG d' st') /\
      nth_error st' 1 = Some (VNum b) /\
      ~ filled st st' (mkLoc 0 []) (c67a h1 h2) [VPtr (Some (VNum a)); VPtr (Some (VNum b))].
Proof.
  exists (mkF "A" true notag), (mkF "B" true notag),
    (mkOut (fun _ => false) (fun z => if (z =? 1) || (z =? 2) then Some (TUint UPlain W8, mkLoc 1 []) else None)),
    [VStruct [VIface (Some 1); VIface (Some 2)]; VNum 5].
  split.
  { intro E. split; [unfold open_enum; now destruct E|]. cbn [every c67a good_item]. repeat split; intros; try (apply fitsb_ok; reflexivity); try (right; cbn; tauto); cbn; tauto. }
  split.
  { split; [reflexivity|]. split; [exists (VNum 5); split; [reflexivity|now left]|]. split; [|exact I]. exists (VNum 5). split; [reflexivity|now left]. }
  intros E W a b Ha Hb Hab. split; [destruct E; vm_compute; reflexivity|].
  eexists _, _. split; [destruct E; vm_compute; reflexivity|]. split; [reflexivity|].
  intros [[_ [(y & Hy & [Hx|[Hx _]]) _]] _]; cbn in Hy; congruence.
Qed.
Print Assumptions C67_alias_refuted.
