(** * Elems: reading the elements of a sequence one at a time

    The public pieces [Stream::next_field] (src/stream.rs 623-635),
    [Context::top] (src/de.rs 271-284) and
    [Deserialize::deserialize_element] (src/de.rs 446-458) put together the way
    a program does that handles the elements of a long document without
    collecting them:

      let ctx = Context::top(&config);
      while let Some(mut field) = stream.next_field()? {
          out.push(T::deserialize_element(&ctx, &mut field)?);
      }

    The context, and so its counts, is shared by all elements. *)

From Verif Require Import Base Wire Dev Stream Types Prog De.
Local Open Scope N_scope.

Section Elems.
  Variable e : env.
  (** The loop above to the end of the document; models the client code over
      src/stream.rs 623-635 and src/de.rs 271-284, 446-458. *)
  Definition each_elem (d : dict) : prog (list value) :=
    ploop (fun vs : list value =>
      r <- pdo ONext ;
      match r with
      | None => PRet (inr vs)
      | Some (tag, vh) => v <- d_elem d tag vh ; PRet (inl (vs ++ [v]))
      end) [].
  Definition stream_elements (zc : bool) (cf : cfg) (t : ty) (s : stream) : res derr (list value) :=
    fst (run stream_source cf (each_elem (full_dict e (S (N.to_nat (cf_rec cf))) zc t)) (top_rst s)).

  (** The same, given up after at most [n] elements (the same lines). *)
  Fixpoint upto_elems (d : dict) (n : nat) (vs : list value) : prog (list value) :=
    match n with
    | O => PRet vs
    | S n' =>
        r <- pdo ONext ;
        match r with
        | None => PRet vs
        | Some (tag, vh) => v <- d_elem d tag vh ; upto_elems d n' (vs ++ [v])
        end
    end.
  Definition first_elements (n : nat) (zc : bool) (cf : cfg) (t : ty) (s : stream) : res derr (list value) :=
    fst (run stream_source cf (upto_elems (full_dict e (S (N.to_nat (cf_rec cf))) zc t) n []) (top_rst s)).
End Elems.
