(** * Loading item by item

    [load] (Contract.v) looks at the nesting of the whole text first.  The code
    reads the text once: the visitor of the contract takes one item after the
    other (contract.rs:55-80), each of which serde_json parses completely, with
    its recursion limit, before it is read as an [Operation] (operation.rs:14-33,
    tagged enums are buffered).  So a panic comes before an item nested too
    deep, if that item is further down.  The JSON grammar is still checked
    first (JsonText.v). *)
From Verif Require Import Base Types TypeNames Function Event Json Contract.
Set Implicit Arguments.
Local Open Scope N_scope.
Local Open Scope list_scope.

(** /repo/ethabi/src/contract.rs:36-81 and 140-142 *)
Definition load_items (p : profile) (j : json) : res Contract :=
  match j with
  | JArr items =>
    foldM (fun c item => if 1 + json_depth item <=? 127 then (do o <- de_operation p item; Ok (add_operation c o)) else Err SerdeJson)
      items default_contract
  | _ => Err SerdeJson
  end.
