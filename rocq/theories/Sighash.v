(** /repo/sighash.go. *)
From Coq Require Import String.
From Verif Require Import Types Text DecPrim Sha256 Heck.

(** Sighash, /repo/sighash.go:24-28. *)
Definition sighash (namespace name : list Z) : list Z :=
  let data := namespace ++ str ":" ++ name in
  firstn 8 (sha256 data).

(** SIGHASH_STATE_NAMESPACE, SIGHASH_GLOBAL_NAMESPACE,
    SIGHASH_ACCOUNT_NAMESPACE, /repo/sighash.go:48-55. *)
Definition state_namespace : list Z := str "state".
Definition global_namespace : list Z := str "global".
Definition account_namespace : list Z := str "account".

(** SighashInstruction, /repo/sighash.go:30-34; SighashAccount, 36-40;
    SighashTypeID, 44-46. *)
Definition sighash_instruction (u : unicode) (name : list Z) : list Z :=
  sighash global_namespace (to_snake_for_sighash u name).
Definition sighash_account (u : unicode) (name : list Z) : list Z :=
  sighash account_namespace (to_pascal_case u name).
Definition sighash_type_id (namespace name : list Z) : list Z :=
  type_id_from_bytes (sighash namespace name).

(** The values of /repo/sighash_test.go:25-110. *)
Example sighash_samples :
  map (fun n => sighash_instruction latin1 (str n)) ["hello"; "serumSwap"; "aldrinV2Swap"; "raydiumSwapV2"]%string =
    [[149; 118; 59; 220; 196; 127; 161; 179]; [88; 183; 70; 249; 214; 118; 82; 210];
     [190; 166; 89; 139; 33; 152; 16; 10]; [69; 227; 98; 93; 237; 202; 223; 140]] /\
  sighash_account latin1 (str "DialectAccount") = [157; 38; 120; 189; 93; 204; 119; 18].
Proof. split; vm_compute; reflexivity. Qed.
