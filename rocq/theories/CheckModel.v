(** * CheckModel: the test that a connection is valid.

    Models check_connection (meshmode/discretization/connection/__init__.py:140-159).

    Simplified: element numbers are natural numbers, so that the tests for negative ones (:153-154) are left out. No proofs in this file. *)
From Coq Require Import List Arith Bool.
From Verif Require Import Np ConnModel.
Import ListNotations.

Section Check.
  Context {N K : Type}.
  Variable knfaces : K -> nat.      (* mesh_el_group.nfaces *)

  (** the loop over the batches of a group (:147-159) *)
  Definition check_batch (from : list (@dgroup K)) (tgrp : @dgroup K) (b : @batch N) : res unit :=
    fgrp <- get from (bt_fgrp b) ;;
    _ <- guard (forallb (fun i => i <? dg_nel fgrp) (bt_from b)) AssertionError ;;
    _ <- guard (forallb (fun i => i <? dg_nel tgrp) (bt_to b)) AssertionError ;;
    match bt_face b with
    | None => Ok tt
    | Some f => guard (f <? knfaces (dg_kind fgrp)) AssertionError
    end.

  Definition check_connection (c : @conn N K) : res unit :=
    _ <- guard (length (cn_groups c) =? length (cn_to c)) AssertionError ;;
    _ <- mapM (fun cg => mapM (check_batch (cn_from c) (snd cg)) (fst cg)) (combine (cn_groups c) (cn_to c)) ;;
    Ok tt.
End Check.
