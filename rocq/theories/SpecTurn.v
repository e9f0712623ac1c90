(** Specification of rendering in several passes. *)
From Verif Require Import Api.

(** The options of either. *)
Definition both (a b : render_options) : render_options :=
  mkRO (minify_spaces a || minify_spaces b) (lowercase_tagname a || lowercase_tagname b)
    (remove_endtag_space a || remove_endtag_space b) (remove_attr_quote a || remove_attr_quote b)
    (remove_comment a || remove_comment b) (always_close_void a || always_close_void b)
    (inner_html a || inner_html b) (decode_entity a || decode_entity b) (encode_content a || encode_content b).
(** Text between the tags is left as it is. *)
Definition keeps_text (o : render_options) : Prop := minify_spaces o = false /\ decode_entity o = false.
