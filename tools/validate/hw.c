/* Executes single instructions on the host CPU: one line in, one line out.
   in:  pc(hex) code(hex) flags(CF PF ZF SF OF as 0/1 string) patchaddr(hex) patch(hex) r0..r15(hex) x0..x15(hex, 128 bit)
   out: "F sig" or  rip flags r0..r15 x0..x15 {addr:byte}  (bytes of the data window that changed) */
#define _GNU_SOURCE
#include <stdio.h>
#include <stdlib.h>
#include <string.h>
#include <stdint.h>
#include <signal.h>
#include <unistd.h>
#include <sys/mman.h>
#include <sys/ptrace.h>
#include <sys/wait.h>
#include <sys/user.h>
#define CODE 0x30000000UL
#define CSZ 0x2000
#define DATA 0x20000000UL
#define DSZ 0x1000
static uint8_t old[DSZ];
static int hexv(const char*s,uint8_t*o){int n=0;while(s[0]&&s[1]){unsigned v;sscanf(s,"%2x",&v);o[n++]=v;s+=2;}return n;}
int main(void){
  uint8_t*code=mmap((void*)CODE,CSZ,7,MAP_SHARED|MAP_ANONYMOUS|MAP_FIXED,-1,0);
  uint8_t*data=mmap((void*)DATA,DSZ,7,MAP_SHARED|MAP_ANONYMOUS|MAP_FIXED,-1,0);
  if(code==MAP_FAILED||data==MAP_FAILED){perror("mmap");return 1;}
  pid_t p=fork();
  if(!p){ptrace(PTRACE_TRACEME,0,0,0);raise(SIGSTOP);for(;;)pause();}
  int st;waitpid(p,&st,0);
  struct user_regs_struct r0,r;struct user_fpregs_struct f0,f;
  ptrace(PTRACE_GETREGS,p,0,&r0);ptrace(PTRACE_GETFPREGS,p,0,&f0);
  static char line[8192];
  while(fgets(line,sizeof line,stdin)){
    char*t=strtok(line," \n");uint64_t pc=strtoull(t,0,16);
    memset(code,0xcc,CSZ);
    t=strtok(0," \n");hexv(t,(uint8_t*)pc);
    char*fl=strtok(0," \n");
    uint64_t pa=strtoull(strtok(0," \n"),0,16);
    for(int i=0;i<DSZ;i++)data[i]=(i*167+(i>>4)*29+13)&255;
    t=strtok(0," \n");hexv(t,(uint8_t*)pa);
    memcpy(old,data,DSZ);
    r=r0;f=f0;
    uint64_t g[16];
    for(int i=0;i<16;i++)g[i]=strtoull(strtok(0," \n"),0,16);
    r.rax=g[0];r.rcx=g[1];r.rdx=g[2];r.rbx=g[3];r.rsp=g[4];r.rbp=g[5];r.rsi=g[6];r.rdi=g[7];
    r.r8=g[8];r.r9=g[9];r.r10=g[10];r.r11=g[11];r.r12=g[12];r.r13=g[13];r.r14=g[14];r.r15=g[15];
    r.rip=pc;r.orig_rax=-1;
    r.eflags=0x202|(fl[0]=='1'?1:0)|(fl[1]=='1'?4:0)|(fl[2]=='1'?0x40:0)|(fl[3]=='1'?0x80:0)|(fl[4]=='1'?0x800:0);
    for(int i=0;i<16;i++){uint8_t b[16];hexv(strtok(0," \n"),b);for(int k=0;k<16;k++)((uint8_t*)f.xmm_space)[16*i+k]=b[15-k];}
    f.mxcsr=0x1f80;
    if(ptrace(PTRACE_SETREGS,p,0,&r)||ptrace(PTRACE_SETFPREGS,p,0,&f)){perror("set");return 1;}
    ptrace(PTRACE_SINGLESTEP,p,0,0);waitpid(p,&st,0);
    if(!WIFSTOPPED(st)){fprintf(stderr,"dead\n");return 1;}
    if(WSTOPSIG(st)!=SIGTRAP){printf("F %d\n",WSTOPSIG(st));continue;}
    ptrace(PTRACE_GETREGS,p,0,&r);ptrace(PTRACE_GETFPREGS,p,0,&f);
    printf("%llx %d%d%d%d%d",r.rip,!!(r.eflags&1),!!(r.eflags&4),!!(r.eflags&0x40),!!(r.eflags&0x80),!!(r.eflags&0x800));
    unsigned long long o[16]={r.rax,r.rcx,r.rdx,r.rbx,r.rsp,r.rbp,r.rsi,r.rdi,r.r8,r.r9,r.r10,r.r11,r.r12,r.r13,r.r14,r.r15};
    for(int i=0;i<16;i++)printf(" %llx",o[i]);
    for(int i=0;i<16;i++){printf(" ");for(int k=15;k>=0;k--)printf("%02x",((uint8_t*)f.xmm_space)[16*i+k]);}
    for(int i=0;i<DSZ;i++)if(data[i]!=old[i])printf(" %lx:%02x",DATA+i,data[i]);
    for(int i=0;i<CSZ;i++)if(0);
    printf("\n");
  }
  kill(p,SIGKILL);
}
