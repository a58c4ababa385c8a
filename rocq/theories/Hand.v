(** * Hand: programs that read and write documents field by field

    The public pieces [Stream::next_field] (src/stream.rs 623-635),
    [Field::skip] (src/stream.rs 1411-1418), [Context::top] (src/de.rs
    271-284), [Deserialize::deserialize_element] (src/de.rs 446-458),
    [Serialize::serialize_element] (src/ser.rs 83-86) and
    [Stream::write_end_struct] (src/stream.rs 969-972) put together the way a
    program does that has no type for the whole document:

      let ctx = Context::top(&config);
      while let Some(mut field) = stream.next_field()? {
          match field.tag {
              1 => out.push((1, A::deserialize_element(&ctx, &mut field)?.into())),
              2 => out.push((2, B::deserialize_element(&ctx, &mut field)?.into())),
              _ => field.skip()?,
          }
      }

      a.serialize_element(&mut stream, 1)?;
      b.serialize_element(&mut stream, 2)?;
      stream.write_end_struct()?;
      stream.commit()?; *)

From Verif Require Import Base Wire Dev Stream Types Prog De Ser.
Local Open Scope N_scope.

(** A value to be written under a tag, with its type: the receiver and the
    tag of one call of serialize_element (src/ser.rs 83-86). *)
Record item_ := mkItem { it_tag : N; it_ty : ty; it_val : value }.

(** The loop above over dictionaries (src/stream.rs 623-635, 1411-1418 and
    src/de.rs 446-458). *)
Definition each_pick (dd : N -> option dict) : prog (list (N * value)) :=
  ploop (fun vs : list (N * value) =>
    r <- pdo ONext ;
    match r with
    | None => PRet (inr vs)
    | Some (tag, vh) =>
        match dd tag with
        | Some d => v <- d_elem d tag vh ; PRet (inl (vs ++ [(tag, v)]))
        | None => pdo OSkip ;> PRet (inl vs)
        end
    end) [].

Section Hand.
  Variable e : env.
  (** Reading: [pick] tells which type the fields of a tag are read as, the
      arms of the client's [match] (src/de.rs 446-458). *)
  Definition dict_at (zc : bool) (cf : cfg) (pick : N -> option ty) (tag : N) : option dict :=
    option_map (full_dict e (S (N.to_nat (cf_rec cf))) zc) (pick tag).
  (** The loop started with [Context::top] (src/de.rs 271-284). *)
  Definition stream_picks (zc : bool) (cf : cfg) (pick : N -> option ty) (s : stream) : res derr (list (N * value)) :=
    fst (run stream_source cf (each_pick (dict_at zc cf pick)) (top_rst s)).

  (** Writing (src/ser.rs 83-86). *)
  Fixpoint write_items (its : list item_) : SM unit :=
    match its with
    | [] => mret tt
    | it :: r => exec (z_elem (ser e (it_val it) (it_ty it)) (it_tag it)) ;; write_items r
    end.
  (** ... and ending the document (src/stream.rs 406-412, 969-972). *)
  Definition write_record (its : list item_) : SM unit :=
    write_items its ;; write_end_struct ;; commit.
End Hand.
