(** Path walking in conduit::Node - src/libs/conduit/conduit_node.cpp.

    A Node owns a vector of child Nodes parallel to its schema's children
    (Node.v); which node a path denotes depends only on the schema, so the walk is
    modelled on a root schema and a position. *)
From Verif Require Import Base DType Path SpecTree Schema.
Local Open Scope Z_scope.

(** Node::fetch_existing (non-const 14363-14413; the const version 14314-14359
    takes the same steps, [child] raising the error for a missing name). *)
Fixpoint nfetch_existing_f (f : nat) (root : schema) (p : list nat) (path : str)
  : outcome (list nat) :=
  match f with
  | O => Fuel
  | S f' =>
      do s <- deref (get_at root p);
      match s with
      | SObj m o ks =>
          let '(c, n) := split_path path in
          match c with
          | [] => nfetch_existing_f f' root p n
          | _ =>
              if str_eqb c dotdot then
                match p with
                | [] => Err
                | _ => nfetch_existing_f f' root (removelast p) n
                end
              else
                match mget m c with
                | None => Err
                | Some i =>
                    let p' := p ++ [Z.to_nat i] in
                    match n with
                    | [] => match znth ks i with Some _ => Ok p' | None => UB end
                    | _ => nfetch_existing_f f' root p' n
                    end
                end
          end
      | _ => Err
      end
  end.
