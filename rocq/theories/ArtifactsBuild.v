(** Test of the model: a type system built from the shipped libraries. *)
From Coq Require Import NArith List Bool String.
From Verif Require Import Base Ty Ids LibCodec Build SpecBuild Compile Artifacts.
Import ListNotations.
Local Open Scope string_scope.
Local Open Scope N_scope.

(** Both shipped libraries; the second one depends on the first one. *)
Definition shipped : list type_lib :=
  match deserialize dec_lib std_bytes, deserialize dec_lib strict_types_bytes with
  | Some a, Some b => [a; b]
  | _, _ => []
  end.
(** The tests run at each build, and are not kept in the compiled file: rechecking them without the
    virtual machine takes long. *)

(** They build, in both orders; and not without the first one. *)
Goal
  match build true shipped, build true (rev shipped), build true (skipn 1 shipped) with
  | Ok s, Ok s', Err [AbsentImport d] =>
      lenN (ss_types s) = 172 /\ ss_types s = ss_types s' /\ d_name d = "Std"
      /\ resolve (ss_symbols s) (mkFqn "StrictTypes" "TypeLib") <> None
  | _, _, _ => False
  end.
Proof. vm_compute. repeat split; discriminate. Abort.

(** Their symbolic form compiles back. *)
Goal
  match shipped with
  | [a; b] =>
      match to_symbolic a, to_symbolic b with
      | Ok s, Ok s' => compile 100 true s = Ok a /\ compile 100 true s' = Ok b
      | _, _ => False
      end
  | _ => False
  end.
Proof. vm_compute. split; reflexivity. Abort.
