(** The declarations that are put at the top of every instrumented file:
    +write-trace-forward-declarations+, instrumentation/c-cpp.lisp:31-97, with
    the names of lines 22-26 and traceable.lisp:46 put in.  The four directives
    (#ifndef, #define, #include <stdarg.h>, #endif) are left out: names from
    stdarg.h are not used by these declarations. *)
From Coq Require Import Strings.String.
From Verif Require Import Base Types PrintPred Emit.

Definition forward_declarations : name :=
  declared_enums ++ text "
struct __trace_type_description;
struct __trace_buffer_size;
typedef struct __trace_type_description __trace_type_description;
typedef struct __trace_buffer_size __trace_buffer_size;

__attribute__((unused))
extern void * " ++ log_name ++ text ";
__attribute__((unused))
extern void * " ++ lock_name ++ text ";

__attribute__((unused))
static void __write_trace_header(void *out, void *lock,
                                 const char **names,
                                 const unsigned long n_names,
                                 const __trace_type_description *types,
                                 const unsigned long n_types);

__attribute__((unused))
static void __write_trace_id(void *out,
                             void *lock,
                             const unsigned long long statement_id);

__attribute__((unused))
static void __write_end_entry(void *out, void *lock);

__attribute__((unused))
static void __write_trace_variables(void *out, const unsigned long n_vars, ...);

__attribute__((unused))
static void __write_trace_blobs(void *out, const unsigned long n_vars, ...);

__attribute__((unused))
static void __write_buffer_size(void *out,
                                void *address,
                                const unsigned long long size);

".
