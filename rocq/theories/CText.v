(** The C functions that write the log: the text of +write-trace-implementation+,
    instrumentation/c-cpp.lisp:100-283, as it is put into instrumented files
    (append-instrumentation-setup-code, lines 480-512). *)
From Coq Require Import Strings.String.
From Verif Require Import Base Types PrintPred.

Definition implementation : name := text "
#ifndef __GT_TRACEDB_IMPLEMENTATION
#define __GT_TRACEDB_IMPLEMENTATION

#include <pthread.h>
#include <stdarg.h>
#include <stdint.h>
#include <stdio.h>
#include <string.h>

struct __trace_type_description {
    /* Index into the string dictionary which gives the name of the type. */
    uint32_t name_index;
    /* Data format */
    enum __type_format format;
    /* Size in bytes. 0 indicates a variable-sized object. */
    uint32_t size;
};

struct __trace_buffer_size {
    uint64_t address;
    uint64_t size;
};

static void __write_trace_header(void *out, void *lock,
                                 const char **names,
                                 const unsigned long n_names,
                                 const __trace_type_description *types,
                                 const unsigned long n_types)
{
    /* Dictionary of names, as a sequence of NULL-terminated strings */
    uint64_t total_size = 0;
    uint32_t i = 0;

    /* Write trace header as single transaction */
    pthread_mutex_lock( (pthread_mutex_t *) lock);

    for (i = 0; i < n_names; i++) {
        total_size += strlen(names[i]) + 1;
    }
    fwrite(&total_size, sizeof(uint64_t), 1, (FILE *) out);

    for (i = 0; i < n_names; i++) {
        fputs(names[i], (FILE *) out);
        fputc(0, (FILE *) out);
    }

    /* Dictionary of types */
    fwrite(&n_types, sizeof(uint32_t), 1, (FILE *) out);
    fwrite(types, sizeof(__trace_type_description), n_types, (FILE *) out);

    /* Finished writing trace header */
    pthread_mutex_unlock( (pthread_mutex_t *) lock);
}

static void __write_trace_id(void *out,
                             void *lock,
                             const unsigned long long statement_id)
{
    /* Write trace point as single transaction */
    pthread_mutex_lock( (pthread_mutex_t *) lock);

    fputc(__GT_TRACEDB_STATEMENT_ID, (FILE *) out);
    fwrite(&statement_id, sizeof(uint64_t), 1, (FILE *) out);
}

static void __write_end_entry(void *out, void *lock)
{
    fputc(__GT_TRACEDB_END_ENTRY, (FILE *) out);
    fflush( (FILE *) out);

    /* Finished writing trace point */
    pthread_mutex_unlock( (pthread_mutex_t *) lock);
}

static void __write_trace_variables(void *out, const unsigned long n_vars, ...)
{
    va_list ap;
    uint32_t i;

    va_start (ap, n_vars);
    for (i = 0; i < n_vars; i++) {
        uint32_t name_index = va_arg(ap, uint32_t);
        uint32_t type_index = va_arg(ap, uint32_t);
        uint32_t size = va_arg(ap, uint32_t);
        enum __type_format format = (enum __type_format) va_arg(ap, int);

        fputc(__GT_TRACEDB_VARIABLE, (FILE *) out);
        fwrite(&name_index, sizeof(uint32_t), 1, (FILE *) out);
        fwrite(&type_index, sizeof(uint32_t), 1, (FILE *) out);

        /* This code is tricky because va_args are subject to standard
         promotions: smaller integers become ints, and floats become
         doubles. Other types are left alone.
        */
        switch (format) {
        case __GT_TRACEDB_UNSIGNED:
        case __GT_TRACEDB_SIGNED:
          switch (size) {
          case 1:
              {
                  char val = va_arg(ap, int);
                  fwrite(&val, sizeof(char), 1, (FILE *) out);
                  break;
              }
          case 2:
              {
                  int16_t val = va_arg(ap, int);
                  fwrite(&val, sizeof(int16_t), 1, (FILE *) out);
                  break;
              }
          case 4:
              {
                  int32_t val = va_arg(ap, int);
                  fwrite(&val, sizeof(int32_t), 1, (FILE *) out);
                  break;
              }
          case 8:
              {
                  int64_t val = va_arg(ap, int64_t);
                  fwrite(&val, sizeof(int64_t), 1, (FILE *) out);
                  break;
              }
          }
          break;
        case __GT_TRACEDB_FLOAT:
          if (size == 4) {
              float val = (float)va_arg(ap, double);
              fwrite(&val, sizeof(float), 1, (FILE *) out);
              break;
          }
          else {
              double val = va_arg(ap, double);
              fwrite(&val, sizeof(double), 1, (FILE *) out);
              break;
          }
          break;
        case __GT_TRACEDB_POINTER:
            {
                void *val = va_arg(ap, void*);
                fwrite(&val, sizeof(void*), 1, (FILE *) out);
            }
            break;
        case __GT_TRACEDB_BLOB:
        case __GT_TRACEDB_INVALID_FORMAT:
        default:
          break;
        }
    }
}

static void __write_trace_blobs(void *out, const unsigned long n_vars, ...)
{
    va_list ap;
    uint32_t i;

    va_start (ap, n_vars);
    for (i = 0; i < n_vars; i++) {
        uint32_t name_index = va_arg(ap, uint32_t);
        uint32_t type_index = va_arg(ap, uint32_t);
        uint32_t size = va_arg(ap, uint32_t);
        void *value = va_arg(ap, void*);

        fputc(__GT_TRACEDB_VARIABLE, (FILE *) out);
        fwrite(&name_index, sizeof(uint32_t), 1, (FILE *) out);
        fwrite(&type_index, sizeof(uint32_t), 1, (FILE *) out);
        fwrite(&size, sizeof(uint32_t), 1, (FILE *) out);
        fwrite(value, size, 1, (FILE *) out);
    }
}

static void __write_buffer_size(void *out,
                                void *address,
                                const unsigned long long size)
{
    fputc(__GT_TRACEDB_BUFFER_SIZE, (FILE *) out);
    __trace_buffer_size val = { (uint64_t)address, (uint64_t)size };
    fwrite(&val, sizeof(val), 1, (FILE *) out);
}

#endif
".
