(** * Induction principles for object trees and values. *)
From Verif Require Import Base ModelData ModelSecondary ModelObject ModelWrapper Spec.

Section ObjInd.
  Variable P : obj -> Prop.
  Hypothesis Hnull : P ONull.
  Hypothesis Hdata : forall dt s, P (OData dt s).
  Hypothesis Hview : forall dt s, P (ODataView dt s).
  Hypothesis Harr : forall p n l, Forall P l -> P (OArray p n l).
  Hypothesis Hmap : forall p n l, Forall (fun e => P (snd e)) l -> P (OMap p n l).
  Hypothesis Hmapv : forall p n l, Forall (fun e => P (snd e)) l -> P (OMapView p n l).

  Fixpoint obj_ind' (o : obj) : P o :=
    match o with
    | ONull => Hnull
    | OData dt s => Hdata dt s
    | ODataView dt s => Hview dt s
    | OArray p n l => Harr p n l
        ((fix go l : Forall P l := match l with
          | [] => Forall_nil _ | x :: r => Forall_cons _ (obj_ind' x) (go r) end) l)
    | OMap p n l => Hmap p n l
        ((fix go l : Forall (fun e => P (snd e)) l := match l with
          | [] => Forall_nil _ | x :: r => Forall_cons _ (obj_ind' (snd x)) (go r) end) l)
    | OMapView p n l => Hmapv p n l
        ((fix go l : Forall (fun e => P (snd e)) l := match l with
          | [] => Forall_nil _ | x :: r => Forall_cons _ (obj_ind' (snd x)) (go r) end) l)
    end.
End ObjInd.

Section ValueInd.
  Variable P : value -> Prop.
  Hypothesis Hsc : forall x, P (VScalar x).
  Hypothesis Harr : forall l, Forall P l -> P (VArr l).
  Hypothesis Hmap : forall l, Forall (fun e => P (snd e)) l -> P (VMap l).

  Fixpoint value_ind' (v : value) : P v :=
    match v with
    | VScalar x => Hsc x
    | VArr l => Harr l
        ((fix go l : Forall P l := match l with
          | [] => Forall_nil _ | x :: r => Forall_cons _ (value_ind' x) (go r) end) l)
    | VMap l => Hmap l
        ((fix go l : Forall (fun e => P (snd e)) l := match l with
          | [] => Forall_nil _ | x :: r => Forall_cons _ (value_ind' (snd x)) (go r) end) l)
    end.
End ValueInd.
