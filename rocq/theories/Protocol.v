(** Checking by the name of a protocol: blueprint::verify, conduit_blueprint.cpp 70-148, and
    the nested protocols.  Trees and reports as in MeshVerify.v.  Every function called here
    resets the report first or is called with an empty one. *)
From Coq Require Import ZArith.
From Verif Require Import Base DType Number Path MeshVerify MeshIndex TableVerify.
Import ListNotations.

(** verify(protocol, n, info) of mcarray, table, o2mrelation and zfparray: no nested protocols;
    conduit_blueprint_mcarray.cpp 49-60, conduit_blueprint_table.cpp 201-210,
    conduit_blueprint_o2mrelation.cpp 55-66, conduit_blueprint_zfparray.cpp 41-52 *)
Definition no_nested : outcome (bool * itree) := reset (valid false) INone.
(** zfparray::verify, conduit_blueprint_zfparray.cpp 55-103 *)
Definition zfparray (n : tree) : V :=
  reset (finish (all_
    [(if is_object n then ret true else fails);
     match kid n (L "zfp_header") with
     | None => fails
     | Some h => if match h with TNum UINT8 _ => true | _ => false end then ret true else fails
     end;
     match kid n (L "zfp_compressed_data") with
     | None => fails
     | Some d => if match d with TNum t _ => is_unsigned t | _ => false end then ret true else fails
     end])).
(** mesh::verify(protocol, n, info), conduit_blueprint_mesh.cpp 1862-1932 *)
Definition mesh_protocol (p : str) (n : tree) : outcome (bool * itree) :=
  if str_eqb p (L "coordset") then coordset n INone
  else if str_eqb p (L "topology") then topology n INone
  else if str_eqb p (L "matset") then matset n INone
  else if str_eqb p (L "specset") then specset n INone
  else if str_eqb p (L "field") then field n INone
  else if str_eqb p (L "adjset") then adjset n INone
  else if str_eqb p (L "nestset") then nestset n INone
  else if str_eqb p (L "index") then index_verify n
  else if str_eqb p (L "coordset/index") then coordset_index n INone
  else if str_eqb p (L "topology/index") then topology_index n INone
  else if str_eqb p (L "matset/index") then matset_index n INone
  else if str_eqb p (L "specset/index") then specset_index n INone
  else if str_eqb p (L "field/index") then field_index n INone
  else if str_eqb p (L "adjset/index") then meeting_index n INone
  else if str_eqb p (L "nestset/index") then meeting_index n INone
  else Ok (false, INone).
Definition protocol_verify (protocol : str) (n : tree) : outcome (bool * itree) :=
  let '(curr, next) := split_path protocol in
  match next with
  | _ :: _ =>
      if str_eqb curr (L "mesh") then mesh_protocol next n
      else if str_eqb curr (L "mcarray") then no_nested
      else if str_eqb curr (L "table") then no_nested
      else if str_eqb curr (L "o2mrelation") then no_nested
      else if str_eqb curr (L "zfparray") then no_nested
      else Err
  | [] =>
      if str_eqb curr (L "mesh") then mesh_verify n
      else if str_eqb curr (L "mcarray") then mcarray n INone
      else if str_eqb curr (L "table") then table_verify n
      else if str_eqb curr (L "o2mrelation") then o2m n INone
      else if str_eqb curr (L "zfparray") then zfparray n INone
      else Err
  end.
