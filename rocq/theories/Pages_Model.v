(** Model of the pages of a collection in the Hypermedia REST API:
    [storage/rest/hypermedia.h].

    Modelling decisions (SIMPL = simplification):
    - an element of a page is the entry; its URL and its brief form are not modelled;
    - [uint64_t] arithmetic wraps around; [size_t] is [uint64_t];
    - [reserve] throws above the greatest size of a vector, a parameter here; SIMPL:
      running out of memory is not modelled. *)
From Coq Require Import List NArith Lia Bool.
Import ListNotations.
Open Scope N_scope.

Definition two64 : N := 2 ^ 64.
Definition u64 (x : N) : N := x mod two64.

Section Pages.
  Context {E : Type}.

  (** hypermedia.h: HypermediaRESTCollectionResponse: the fields set at 159-172. *)
  Record page := Page {
    pg_i : N; pg_n : N; pg_total : N;
    pg_url : N * N;                     (* "?i=…&n=…" *)
    pg_previous : option (N * N);       (* url_previous_page *)
    pg_next : option (N * N);           (* url_next_page *)
    pg_data : list E
  }.

  (** hypermedia.h 128-152, the loop over the span from the entry number [index] on:
      the data, has_previous_page, has_next_page. *)
  Fixpoint page_loop (i n : N) (span : list E) (index : N) (prev : bool) : list E * bool * bool :=
    match span with
    | [] => ([], prev, false)
    | e :: span' =>
        if (i <=? index) && (index <? u64 (i + n)) then
          let '(data, p, x) := page_loop i n span' (u64 (index + 1)) prev in (e :: data, p, x)
        else if index <? i then page_loop i n span' (u64 (index + 1)) true
        else if u64 (i + n) <=? index then ([], prev, true)
        else page_loop i n span' (u64 (index + 1)) prev
    end.

  (** hypermedia.h 110-175, BuildResponseWithCollection; [None]: [reserve] throws. *)
  Definition build_page (max_size : N) (span : list E) (query_i query_n : N) : option page :=
    let total := N.of_nat (length span) in
    if max_size <? query_n then None
    else
      let '(data, has_previous, has_next) := page_loop query_i query_n span 0 false in
      let i := if total <? query_i then total else query_i in
      Some (Page i (N.min query_n (total - i)) total (i, query_n)
        (if has_previous then Some (if query_n <=? i then i - query_n else 0, query_n) else None)
        (if has_next then
           Some (if total <? u64 (i + u64 (query_n * 2)) then u64 (total + two64 - query_n) else u64 (i + query_n), query_n)
         else None)
        data).
End Pages.
Arguments page : clear implicits.
