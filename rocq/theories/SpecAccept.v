(** * SpecAccept: inputs that begin with a document *)

From Verif Require Import Base Wire Types SpecWire SpecFormat SpecDoc.

Definition not_exc (e : delem) : bool := match e with DExc _ => false | _ => true end.

(** The elements are a whole document: either up to the end-of-struct of the
    document itself, or with one end-of-document marker in place of all the
    ends of structs still due. *)
Definition closes (es : list delem) (ks : list (N * node)) : Prop :=
  es = document ks \/
  exists X k, document ks = X ++ repeat DEnd (S k) /\ es = X ++ [DEof].

(** The input begins with elements that, exceptions aside, are the document
    [ks]. *)
Definition begins_with (ks : list (N * node)) (bs : bytes) : Prop :=
  exists b0 tl es, bs = b0 ++ tl /\ encodes es b0 /\ closes (filter not_exc es) ks.

(** The same, without any exception. *)
Definition begins_with_plain (ks : list (N * node)) (bs : bytes) : Prop :=
  exists b0 tl es, bs = b0 ++ tl /\ encodes es b0 /\ closes es ks.

(** There is no exception anywhere in the elements at the front of the
    input. *)
Definition exception_free (bs : bytes) : Prop :=
  forall b0 tl es m, bs = b0 ++ tl -> encodes es b0 -> ~ In (DExc m) es.
